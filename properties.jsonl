{"id": "C01", "title": "Integer fields survive the text encoding, out-of-range text is refused", "statement": "Every integer of every width i8..i64/u8..u64 that the client writes into a path, query or header field is read back by the server as the same integer; conversely text is accepted for an integer field only if it is an optional sign followed by decimal digits whose value lies in the field's range, so a value is never wrapped or truncated.", "quantifier": "all eight integer types, all their values, all input texts", "why_tests_cant": "2^64 values and all strings of any length", "anchors": ["src/serializers/url_path.rs:UrlPathSerializer", "src/serializers/url_query.rs:UrlQuerySerializer", "src/deserializers/url_path.rs:parse_escaped_str", "src/deserializers/url_query.rs:parse_cow_str", "src/deserializers/http_header.rs:parse_slice"]}
{"id": "C02", "title": "Which strings survive as a path variable", "statement": "A string written by the client as one path variable is read back by the server as the same string exactly when every character is ASCII and none is TAB, LF or CR, the string is not '.' or '..', it is not empty if it is the first of several segments (and, for url releases that trim, it does not begin or end with a control character or space); every other string is silently altered or lost. In particular %-escapes, '/', '?', '#' and '\\' inside a value are safe, and no non-ASCII string ever survives.", "quantifier": "all Unicode strings, both behaviours of the url crate", "why_tests_cant": "the set of strings is infinite; the claim is an equivalence", "anchors": ["src/serializers/url_path.rs:bind_next_var", "src/deserializers/url_path.rs:percent_decode"]}
{"id": "C03", "title": "Query pairs survive the URL", "statement": "Any list of (key, value) pairs of Unicode strings the client appends to the query is read back by the server as the same list in the same order, whatever characters they contain.", "quantifier": "all lists of pairs of Unicode strings", "why_tests_cant": "unbounded lists and strings", "anchors": ["src/serializers/url_query.rs:append", "src/deserializers/url_query.rs:next_str", "src/misc.rs:parse_relative_url"]}
{"id": "C04", "title": "When a path can be serialized, and what it is", "statement": "Serializing a value as the path of an entry point succeeds exactly when the value is a tuple, tuple struct or tuple variant (possibly inside newtypes) of exactly as many scalars as the entry point has variables, or a unit/unit struct for an entry point without variables; the result is the entry point with its variables replaced, in order, by the scalars' texts. Everything else is an Invalid error; it never panics.", "quantifier": "all entry points and all serde values, of any nesting", "why_tests_cant": "unbounded value trees", "anchors": ["src/serializers/url_path.rs:UrlPathSerializer", "src/procedure.rs:EntryPoint"]}
{"id": "C05", "title": "Path decoding is bound to the entry point", "statement": "Decoding a tuple from a URL path never panics (no index out of range, no unwrap of a missing segment, no underflow of the free-variable counter); when it succeeds, every constant segment of the entry point up to the last decoded variable equals the URL segment at the same position, and the i-th decoded component is the decoding of the URL segment at the position of the i-th variable.", "quantifier": "all entry points, all URL paths, all target types", "why_tests_cant": "unbounded paths and types", "anchors": ["src/deserializers/url_path.rs:next_value", "src/deserializers/url_path.rs:finish"]}
{"id": "C06", "title": "Typed path round-trip", "statement": "For every entry point of URL-plain constants and every tuple, tuple struct or newtype of these with supported scalar types and one component per variable, the value the client serializes into the URL is the value the server decodes from it, provided the component texts are path-safe strings (and the first of several segments is not empty).", "quantifier": "all entry points, types, values", "why_tests_cant": "unbounded", "anchors": ["src/serializers/url_path.rs:UrlPathSerializer", "src/deserializers/url_path.rs:UrlPathDeserializer"]}
{"id": "C07", "title": "Typed query round-trip", "statement": "For every struct of scalar and optional scalar fields with distinct names, serializing it into the query and decoding it on the server gives back the same struct, with None for absent options.", "quantifier": "all such struct types and values", "why_tests_cant": "unbounded number of fields and string contents", "anchors": ["src/serializers/url_query.rs:UrlQuerySerializer", "src/deserializers/url_query.rs:UrlQueryDeserializer"]}
{"id": "C08", "title": "Typed header round-trip", "statement": "For every struct of scalar and optional scalar fields with distinct lower-case names other than content-length, serializing it into the HTTP header, adding Content-Length, and decoding it on the peer gives back the same struct.", "quantifier": "all such struct types and values, all body lengths", "why_tests_cant": "unbounded", "anchors": ["src/serializers/http_header.rs:HttpHeaderSerializer", "src/deserializers/http_header.rs:HttpHeaderDeserializer"]}
{"id": "C09", "title": "An RPC request arrives unchanged at its handler", "statement": "For a procedure registered on the server, the request value a client sends with that procedure reaches that procedure's handler unchanged, whatever the length of the body sent with it, provided path values are path-safe and no other registered entry point shadows the path. (That the bytes of the body arrive too is C50.)", "quantifier": "all procedures, all sets of other registrations, all request values and body lengths", "why_tests_cant": "unbounded registrations and values", "anchors": ["src/client.rs:CallInner", "src/server.rs:RpcServerBuilder::register", "src/serializers/rpc_request.rs:RpcRequestSerializer", "src/deserializers/rpc_request.rs:RpcRequestDeserializer", "src/router.rs:Router::route"]}
{"id": "C10", "title": "A request with a query needs a path", "statement": "A request struct in which 'query' is serialized before any 'path' can never be sent: serialization fails for every entry point and every query value, even for entry points without variables, and with an Invalid error if 'query' is the first field.", "quantifier": "all entry points, all query values", "why_tests_cant": "universal negative claim over all values", "anchors": ["src/serializers/rpc_request.rs:serialize_field"]}
{"id": "C11", "title": "When the client panics instead of returning an error", "statement": "Serializing and finishing a request panics exactly in two situations: the request has no field at all or starts with 'header' although the entry point has variables (so the path was never given), or it is an enum struct variant whose first field is 'header'; in all other cases, for every serde value, the outcome is a request or an Invalid error.", "quantifier": "all entry points and all serde values", "why_tests_cant": "universal over value trees", "anchors": ["src/serializers/rpc_request.rs:take_request", "src/serializers/rpc_request.rs:SerializeStructVariant"]}
{"id": "C12", "title": "Order of the parts of a request", "statement": "A request struct is serialized successfully only if its fields are named path, query or header, no path or query field follows a query or header field, and a path precedes any query; every field with another name is refused.", "quantifier": "all field lists", "why_tests_cant": "unbounded field lists", "anchors": ["src/serializers/rpc_request.rs:serialize_field"]}
{"id": "C13", "title": "Booleans", "statement": "In path, query and header fields false is transmitted faithfully, also inside options and newtypes and whatever the other fields hold, while true written by the client is refused by the server in every position: no receiver ever decodes true from what the client wrote for true.", "quantifier": "all entry points, keys, field positions", "why_tests_cant": "universal over positions and surrounding data", "anchors": ["src/serializers/url_path.rs:serialize_bool", "src/serializers/url_query.rs:serialize_bool", "src/serializers/http_header.rs:serialize_bool"]}
{"id": "C14", "title": "Types the receiver always refuses", "statement": "char and enum fields are written by the client but refused by every decoder (path, query, header) for every input, with the error kind Invalid wherever the type has no self-describing part; unit paths are written by the client but refused by the path decoder for every URL. Self-describing types (those that let the format decide), also inside newtypes, are refused by every decoder and as whole requests and responses, with the error kind Other.", "quantifier": "all inputs, all enum types", "why_tests_cant": "universal negative claim", "anchors": ["src/deserializers/url_path.rs:deserialize_enum", "src/deserializers/url_query.rs:deserialize_char", "src/deserializers/http_header.rs:deserialize_enum"]}
{"id": "C15", "title": "MessagePack fields", "statement": "A field using htrpc::msgpack can never be serialized into a path, query or header, and never be decoded as a component of a path, or as a field of a query or header: both directions fail for every value and every input.", "quantifier": "all values, all inputs", "why_tests_cant": "universal negative claim", "anchors": ["src/msgpack.rs:serialize", "src/msgpack.rs:deserialize"]}
{"id": "C16", "title": "Unknown query parameters", "statement": "An unknown query parameter is ignored when it is the last one; when another parameter follows, the unknown parameter's value is taken for the next key, so the decoded struct can differ from, or fail unlike, the one decoded without the unknown parameter.", "quantifier": "all struct types, all queries", "why_tests_cant": "depends on every continuation of the query", "anchors": ["src/deserializers/url_query.rs:deserialize_ignored_any", "src/deserializers/url_query.rs:next_str"]}
{"id": "C17", "title": "Unknown headers are ignored", "statement": "Inserting, anywhere in the header section, headers whose lower-cased names are not fields of the target struct never changes the result of decoding, success or error.", "quantifier": "all struct types, all header lists, all insert positions", "why_tests_cant": "unbounded lists and positions", "anchors": ["src/deserializers/http_header.rs:deserialize_ignored_any"]}
{"id": "C18", "title": "Duplicate fields are refused", "statement": "If a header field of the target struct occurs twice, decoding fails. So it does if a query field occurs twice in a query of known parameters, or twice among the pairs the decoder meets in any query: no later occurrence ever silently overrides an earlier one. Beside an unknown parameter this can fail: its value may be taken for a key and the key of the second occurrence for a value (C16), so that a repeated parameter is accepted.", "quantifier": "all struct types and inputs", "why_tests_cant": "unbounded inputs", "anchors": ["src/deserializers/http_header.rs:next_key_seed", "src/deserializers/url_query.rs:next_key_seed"]}
{"id": "C19", "title": "An RPC response arrives unchanged", "statement": "A response enum value whose variant is a unit or struct variant named after an HTTP status is decoded by the client as the same variant with the same header struct; a response struct with a numeric status is decoded with the same status and header. This holds whatever the length of the body sent with it. (That the bytes of the body arrive too is C50.)", "quantifier": "all response types, values, body lengths", "why_tests_cant": "unbounded values, all 57 statuses", "anchors": ["src/serializers/rpc_response.rs:RpcResponseSerializer", "src/deserializers/rpc_response.rs:RpcResponseDeserializer"]}
{"id": "C20", "title": "Status names and codes agree between the two directions", "statement": "The name table used for sending and the code table used for receiving are inverse bijections on the 57 known statuses; any other variant name is refused by the sender and any other code by the receiver. The names are the registered reason phrases in camel case, with two deviations: 417 is misspelt, and the four statuses of RFC 6585 are missing.", "quantifier": "all strings, all 16-bit codes", "why_tests_cant": "all strings", "anchors": ["src/serializers/rpc_response.rs:status_from_str", "src/deserializers/rpc_response.rs:status_code_to_str"]}
{"id": "C21", "title": "Newtype response variants take the status of their content", "statement": "A newtype variant of a response enum is sent with the status of its content, never of the variant's name; it is therefore decoded as the variant named after the content's status.", "quantifier": "all variants and contents", "why_tests_cant": "unbounded values", "anchors": ["src/serializers/rpc_response.rs:serialize_newtype_variant"]}
{"id": "C22", "title": "Response serialization never panics and frames the body", "statement": "For every serde value, serializing a response yields a response or an error, never a panic; it yields a response only if a status was given before any header; the response's last header is Content-Length with the exact body length and the preceding ones are the value's headers in order. Every value that does not stand for a response in this sense is refused with the error kind Invalid.", "quantifier": "all serde values, all bodies", "why_tests_cant": "universal over value trees", "anchors": ["src/serializers/rpc_response.rs:RpcResponseSerializer"]}
{"id": "C23", "title": "Routing follows the constants-first rule", "statement": "After any sequence of registrations, a URL is routed as follows: segment by segment keep the entry points agreeing on a constant, or, only if there is none, those with a variable; 404 when none remains; 405 when none of the remaining entry points ends there with the request's method; otherwise the handler registered for that entry point and method.", "quantifier": "all registration sequences, all URLs, all methods", "why_tests_cant": "unbounded registrations", "anchors": ["src/router.rs:Router::route", "src/router.rs:Trie::insert"]}
{"id": "C24", "title": "Conflicting registrations", "statement": "Registering a handler fails exactly when the same method and entry point were already registered successfully, and a failed registration leaves the routing of every request unchanged; a handler once registered is never replaced.", "quantifier": "all registration histories, all requests", "why_tests_cant": "unbounded histories", "anchors": ["src/router.rs:Trie::insert", "src/server.rs:RpcServerBuilder::register"]}
{"id": "C25", "title": "Routing is sound", "statement": "A request is given to a handler only if that handler was registered with the request's method and an entry point that has as many segments as the URL and whose constant segments equal the URL's segments.", "quantifier": "all registration histories, all URLs", "why_tests_cant": "unbounded", "anchors": ["src/router.rs:Router::route"]}
{"id": "C26", "title": "Routing does not depend on registration order", "statement": "Two registration sequences that are permutations of each other and without conflicts route every request identically.", "quantifier": "all permutations, all requests", "why_tests_cant": "factorially many orders", "anchors": ["src/router.rs:Trie::insert"]}
{"id": "C27", "title": "Procedures that can never be reached", "statement": "A procedure with the empty entry point, with a constant segment that URLs do not keep literally (it contains an escaped character or is '.' or '..'), or with an empty constant followed by further segments, is never reached by any request the client serializes for it, whatever else is registered.", "quantifier": "all registrations, all URLs", "why_tests_cant": "universal negative claim", "anchors": ["src/router.rs:Router::route", "src/router.rs:TrieNode::get_child"]}
{"id": "C28", "title": "Every request gets the right answer", "statement": "For every request message: a target that is not a URL gives 400, an unrouted one 404 or 405, an undecodable one 400, otherwise the handler's response; the server panics exactly when the target parses as a URL that has no path segments (such as mailto:x).", "quantifier": "all targets, methods, headers, routers", "why_tests_cant": "unbounded inputs from the network", "anchors": ["src/server.rs:HandleHttpRequest::poll_impl", "src/server.rs:RpcServerBuilder::register", "src/router.rs:Router::route"]}
{"id": "C29", "title": "Clients never send a dangerous target", "statement": "The request target a client serializes always starts with exactly one '/', contains no fragment and only printable ASCII without space, and parses on the server to exactly the path segments and query the client wrote; it never triggers the server's panic.", "quantifier": "all entry points, values", "why_tests_cant": "unbounded values including hostile strings", "anchors": ["src/serializers/rpc_request.rs:RpcRequestSerializer", "src/misc.rs:parse_relative_url"]}
{"id": "C30", "title": "A connection answers requests one by one and in order", "statement": "On one server connection, for every arrival pattern of requests, readiness and failures: responses are written in request order, at most one per request, the next request is read only after the previous response was completely written, and after an error or end of stream nothing more is read or written.", "quantifier": "all schedules of readiness and errors", "why_tests_cant": "all interleavings", "anchors": ["src/server.rs:HandleHttpRequest::poll_impl"]}
{"id": "C31", "title": "HEAD and body framing", "statement": "For a HEAD request the server writes the response head and no body byte; for any other method it writes exactly the body whose length the Content-Length header states.", "quantifier": "all requests, handlers and schedules", "why_tests_cant": "all histories of a connection", "anchors": ["src/server.rs:HandleHttpRequest::poll_impl", "src/serializers/rpc_response.rs:finish"]}
{"id": "C32", "title": "The accept loop is not stopped by one client", "statement": "The server spawns exactly one connection task per accepted client, in order, continues after any failure of an individual client, and ends only with an error of the listener itself or when the listener is exhausted.", "quantifier": "all accept schedules", "why_tests_cant": "all interleavings", "anchors": ["src/server.rs:RpcServer::poll"]}
{"id": "C33", "title": "Pool size bound", "statement": "After every command the pool holds at most pool_size idle connections, for every pool size including 0.", "quantifier": "all command sequences, sizes, clock readings", "why_tests_cant": "unbounded histories", "anchors": ["src/pool.rs:drop_exceeded_lru_connections"]}
{"id": "C34", "title": "Pool reuse order", "statement": "The pool behaves like a list of idle connections in release order: acquiring for an address hands out the connection to that address that was released longest ago and removes only it, or starts a new connection if there is none; releasing appends, and drops the longest-idle connections while the bound is exceeded.", "quantifier": "all command sequences over addresses not differing only in IPv6 scope or flow", "why_tests_cant": "unbounded histories", "anchors": ["src/pool.rs:acquire_connection", "src/pool.rs:release_connection"]}
{"id": "C35", "title": "Connections are only used for their address", "statement": "A call to an address only ever uses a connection that was established to its IP address and port, however many calls there were; and to that very address (scope and flow label included) unless the pool's counter wraps round and addresses that differ only in these are in use.", "quantifier": "all schedules of any number of calls", "why_tests_cant": "all interleavings", "anchors": ["src/pool.rs:acquire_connection", "src/pool.rs:Call"]}
{"id": "C36", "title": "A connection is never shared", "statement": "At every moment of every execution each open connection is held by at most one of: one call in progress, one pending release message, the pool.", "quantifier": "all schedules of any number of calls, failures, drops", "why_tests_cant": "all interleavings", "anchors": ["src/pool.rs:RpcClientPool", "src/pool.rs:Call"]}
{"id": "C37", "title": "Suspension of failing addresses", "statement": "In every command history of fewer than 2^64 releases whose suspension deadlines are representable times: after a connect failure is recorded at time t, every acquisition of that address handled at a time before t + suspended_duration fails without a connection attempt and without touching idle connections, the first one at or after that time is served again, and other addresses are never affected.", "quantifier": "all histories and (even non-monotonic) clock readings", "why_tests_cant": "all clock readings and histories", "anchors": ["src/pool.rs:handle_command"]}
{"id": "C38", "title": "Connections return to the pool exactly after success", "statement": "A call that completes successfully sends its connection back exactly once; a call that fails or is dropped at any point never does.", "quantifier": "all schedules, drop points, failures", "why_tests_cant": "all interleavings and crash points", "anchors": ["src/pool.rs:Call::poll", "src/pool.rs:PooledConnection"]}
{"id": "C39", "title": "The pool never hits its 'Never fails' assertions", "statement": "For every command history of fewer than 2^64 releases whose suspension deadlines are representable times, no expect of the pool panics; with an unrepresentable deadline the pool does panic.", "quantifier": "all histories", "why_tests_cant": "unbounded histories", "anchors": ["src/pool.rs:acquire_connection", "src/pool.rs:drop_exceeded_lru_connections", "src/pool.rs:handle_command"]}
{"id": "C40", "title": "Reuse is missed for IPv6 aliases", "statement": "There are histories in which the pool holds an idle connection to the requested address and still opens a new one: when an older idle connection goes to an IPv6 address that differs only in scope id or flow label. It never hands out the alias's connection.", "quantifier": "all histories", "why_tests_cant": "needs a specific history", "anchors": ["src/pool.rs:ConnectionId", "src/pool.rs:acquire_connection"]}
{"id": "C41", "title": "A call runs its steps once and in order", "statement": "For every schedule a call connects, then serializes and writes its request once, then reads the response head, then the body (none for HEAD), and only then yields the decoded response; any failure ends it with that error and no later step happens; it never panics for requests that serialize without panic.", "quantifier": "all schedules and failures", "why_tests_cant": "all interleavings", "anchors": ["src/client.rs:CallInner::poll"]}
{"id": "C42", "title": "Error classification", "statement": "Malformed input (UTF-8, booleans, numbers, URLs, serde custom errors) is reported as Invalid; I/O, HTTP, channel failures and timeouts as Other; wrapping in phases preserves the kind.", "quantifier": "all error sources, any nesting of phases and options", "why_tests_cant": "all nestings", "anchors": ["src/error.rs:From"]}
{"id": "C43", "title": "Problem details round-trip and carry their status", "statement": "Encoding a Problem as JSON and decoding it gives the same Problem, absent optional members staying absent, and into_response sends exactly the problem's own status; replacing the problem afterwards does not change the status sent.", "quantifier": "all problems", "why_tests_cant": "unbounded strings and histories lists", "anchors": ["src/rfc7807.rs:Problem", "src/rfc7807.rs:ProblemResponse"]}
{"id": "C44", "title": "Server-generated problems are understood by clients", "statement": "Whenever the server answers 400, 404 or 405 by itself, a client whose response enum has the newtype variant of that status over ProblemResponse decodes that variant, with the very Problem the server built.", "quantifier": "all requests, all such response enums", "why_tests_cant": "unbounded inputs", "anchors": ["src/server.rs", "src/rfc7807.rs", "src/deserializers/rpc_response.rs"]}
{"id": "C45", "title": "ProblemResponse as a whole response type", "statement": "A client whose response type is ProblemResponse itself (not a variant of an enum) can never decode any response.", "quantifier": "all responses", "why_tests_cant": "universal negative claim", "anchors": ["src/rfc7807.rs:ProblemResponse", "src/deserializers/rpc_response.rs:next_value_seed"]}
{"id": "C46", "title": "JSON fields", "statement": "A field using htrpc::json or htrpc::json_pretty in a query or header is decoded to the same value for every value whose JSON text is faithful; in a path the same holds when the JSON text is path-safe.", "quantifier": "all values", "why_tests_cant": "unbounded values", "anchors": ["src/json.rs", "src/json_pretty.rs"]}
{"id": "C47", "title": "Header names are case-insensitive for decoding", "statement": "Changing the ASCII case of header names in a message never changes the decoded header struct; conversely a struct field whose name contains an upper-case letter is never filled.", "quantifier": "all header lists and case changes", "why_tests_cant": "2^n case changes", "anchors": ["src/deserializers/http_header.rs:next_bytes"]}
{"id": "C48", "title": "Calls do not hang when the pool is gone", "statement": "When the pool future has been dropped or has died, every call waiting for a connection, before or after, resolves with an error of kind Other, and calls already holding a connection still finish.", "quantifier": "all schedules and crash points", "why_tests_cant": "all crash points", "anchors": ["src/pool.rs:AcquireConnection::poll", "src/pool.rs:RpcClientPoolHandle"]}
{"id": "C49", "title": "Failed connection attempts are reported and recorded", "statement": "Under every schedule, a pooled call reports its address to the pool exactly when it is polled with its connection attempt failed, once, doing nothing else; the pool handles all commands in the order they were sent; calls to a reported address handled within the suspension fail without any network action, others are served.", "quantifier": "all schedules of calls, polls, drops, clock readings and connection outcomes", "why_tests_cant": "interleavings of unboundedly many calls and clock readings", "anchors": ["src/pool.rs:PooledConnection::poll", "src/pool.rs:handle_command", "src/pool.rs:AcquireConnection::poll"]}
{"id": "C50", "title": "A call from client to handler and back", "statement": "When client and server are joined by a network that carries messages, a call of a registered procedure whose entry point is not hidden, with a request whose parts survive transport, runs that procedure's handler on exactly the request value and body the client sent, and the client's call ends with exactly the response value and body the handler returned (an empty body for HEAD); a call no procedure answers ends at the client as the 404 or 405 problem document the server sent.", "quantifier": "all servers, procedures, requests, bodies, responses, delays and networks that carry messages", "why_tests_cant": "unbounded values, registrations and schedules; both sides are separate programs whose agreement a test only samples", "anchors": ["src/client.rs:32-130", "src/server.rs:55-102", "src/server.rs:181-270", "src/serializers/rpc_request.rs", "src/serializers/rpc_response.rs", "src/deserializers/rpc_request.rs", "src/deserializers/rpc_response.rs", "src/router.rs"]}
{"id": "C51", "title": "Whatever arrives, decoded values are of the declared type", "statement": "For every request target and headers, every response status and headers, and every JSON text, if decoding succeeds then the result is a value of the declared type: integers in range, strings of Unicode scalar values, bytes below 256, tuples of the right length, every struct field present once in order, map keys distinct, variants existing with their contents. Hence handlers only ever see requests of their type and calls only ever return responses of theirs.", "quantifier": "all targets, headers, statuses, JSON texts and all types without self-describing parts", "why_tests_cant": "unbounded inputs and types; a test covers one type and finitely many inputs", "anchors": ["src/deserializers/url_path.rs", "src/deserializers/url_query.rs", "src/deserializers/http_header.rs", "src/deserializers/rpc_request.rs", "src/deserializers/rpc_response.rs", "src/json.rs:32"]}
{"id": "C52", "title": "Calls that share a connection each get their own answer", "statement": "Let calls be made one after the other on one connection, each on the connection the previous one gave back (as a pool does), against the server's connection loop, over any network of which it is only known that what is written on one end is read on the other in the same order, with any delays. Then every call ends with the response and body meant for it: what its handler gave, the 404/405 problem, or the 400 problem, never with that of another call; HEAD calls in between take no body. Such networks exist for all lists of calls.", "quantifier": "all lists of calls, procedures, values, bodies, handlers, networks and delays", "why_tests_cant": "unbounded sequences of calls over arbitrary networks; pairing of responses with requests is never sent on the wire, it follows from both loops", "anchors": ["src/client.rs:77-130", "src/server.rs:178-270", "src/pool.rs:186-216", "src/pool.rs:314-330"]}
{"id": "C53", "title": "Exactly the JSON texts are read, and exactly the problem documents are accepted", "statement": "A text is read as a JSON tree if and only if the grammar of RFC 8259 says it stands for that tree and it is nested less than 128 deep; every other text is refused with an invalid-input error, and no text stands for two trees. A response body is read as a problem if and only if it is the UTF-8 of a JSON text whose document represents that problem: an object in which the known members occur at most once with the right types and range (others are ignored), or the array of the members in order. Any other body leaves the problem of the response as it was. A body that is read replaces the problem and leaves the status; if it is not read, the client is left with an about:blank problem of status 500, whatever status the response had.", "quantifier": "all byte strings, texts, trees and problems; all URL parsers", "why_tests_cant": "the set of refused inputs is infinite; a parser that accepts a little too much passes every test on well-formed documents", "anchors": ["src/rfc7807.rs:49-54", "src/rfc7807.rs:118-128", "src/rfc7807.rs:179-220", "src/json.rs:26-34"]}
{"id": "C54", "title": "JSON is decoded as a type exactly as the document means it", "statement": "Decoding a JSON tree, text, body or `with = htrpc::json` field as a type gives a value if and only if the document means that value of that type: numbers in the range of the integer type, structs from an object in which each member occurs at most once (others ignored, an absent Option being None) or from the array of all members in order, enums by name or by a one-member object, maps with the last value of a repeated key, fixed-length sequences of exactly that length. Everything else is refused with an invalid-input error, and no tree means two values of a type.", "quantifier": "all types whose structs do not repeat a field name and that are not self-describing; all trees, texts and byte strings", "why_tests_cant": "both the types and the refused documents are infinite families; a decoder that accepts a little too much passes every round-trip test", "anchors": ["src/json.rs:26-34", "src/json_pretty.rs:22-29", "src/rfc7807.rs:49-54"]}
{"id": "C55", "title": "Requests are decoded exactly as URL and headers mean them", "statement": "The server decodes a request as a type if and only if the request means that value: the path variables of the entry point in order (constants before them agreeing), the query pairs and the headers that fill the struct or map declared for them, absent options as None; a request type without a header part needs at least one header. Everything else is refused with an invalid-input error, which the client gets as a 400 answer, and the handler is called with exactly the value the request means. No request means two values.", "quantifier": "all entry points, URLs and header sections; all types whose structs do not repeat a field name and that are not self-describing", "why_tests_cant": "types, URLs and header sections are infinite families, and a decoder that accepts slightly too much or reports another error kind passes every round-trip test", "anchors": ["src/deserializers/rpc_request.rs:37-284", "src/deserializers/url_path.rs:22-338", "src/deserializers/url_query.rs:37-333", "src/deserializers/http_header.rs:37-351", "src/server.rs:55-99"]}
{"id": "C56", "title": "Responses are decoded exactly as status and headers mean them", "statement": "The client decodes a response as a type if and only if the response means that value: the status as a number that fits the declared type, or the enum variant named by the standard reason phrase of the status; the headers as the struct or map declared for them; inside a variant only the headers are left. Everything else is refused with an invalid-input error, which is the outcome of the call. No response means two values.", "quantifier": "all status codes and header sections; all types whose structs do not repeat a field name and that are not self-describing; all calls that receive a response", "why_tests_cant": "types and header sections are infinite families; nested variants, maps and the statuses without a name are never exercised by round trips", "anchors": ["src/deserializers/rpc_response.rs:30-377", "src/deserializers/http_header.rs:37-351", "src/client.rs:110-130"]}
{"id": "C57", "title": "The JSON text of a value, exactly", "statement": "A field declared with `htrpc::json` (or `htrpc::json_pretty`) hands on exactly one text per value, and the body of a problem response is written the same way. Units and absent options are null, present options and newtypes are what they hold, byte strings, sequences and tuples are arrays, structs and maps are objects in the order of their fields or entries, and a variant with a content is an object whose only key is the variant's name. Quotes, backslashes and control characters are escaped (short escapes where JSON has them, lower-case \\u00hh otherwise), every other character is left as it is. The compact form has no white space outside strings; the pretty form puts each element on its own line, indented by two spaces per level, with a space after each colon. A value is refused, with the error kind Invalid, exactly if it contains somewhere a map with a key that is not a string, character, integer, unit variant or a newtype of one of these; nothing panics.", "quantifier": "All values of serde's data model, both layouts, every float formatting.", "why_tests_cant": "Values are nested without bound; a test compares a few texts and cannot show that no value is refused for another reason or written differently at depth.", "anchors": ["src/json.rs:13-20", "src/json_pretty.rs:13-20", "src/rfc7807.rs:45-48"]}
{"id": "C58", "title": "Every call ends, if the pool and the call are run and the network answers", "statement": "If the pool's task and a call's future keep being polled, and every connect, write and read eventually succeeds or fails, then the call is over after finitely many polls and stays so: with a response, an error, the panic of a request that cannot be written (C11), or dropped by its user, however many other calls compete, fail or are abandoned, whatever the size of the pool, and whether or not the pool itself survives. Only its own user can drop it. Both conditions are needed: a call whose pool is never polled waits for ever, and since the library puts no time limit on writing a request or reading a response, a call to a peer that accepts the connection and never answers is never over.", "quantifier": "All infinite interleavings of calls, drops, turns of the pool and polls, all procedures and requests, all pool sizes, durations and clocks, all fair schedules.", "why_tests_cant": "It is about infinite schedules: a test runs a few finite ones and a call that starves under an unlucky one is not seen.", "anchors": ["src/pool.rs:226-235", "src/pool.rs:246-256", "src/pool.rs:290-307", "src/client.rs:76-131"]}
{"id": "C59", "title": "Request targets are written and read character by character as URLs are", "statement": "The target of every request that is sent is the text that its path segments and query pairs are written as: printable characters other than those with a meaning stand for themselves, tabs and line ends vanish from segments, lone dots add nothing, everything else is escaped by its UTF-8 bytes with two upper-case hexadecimal digits each, a space of a query becomes a plus sign; no other text is. A query text is read by its pieces between ampersands, key and value at the first equals sign, escapes with digits of either case, bytes that are not UTF-8 replaced. Any target of visible characters beginning with exactly one slash is read as its segments between slashes or backslashes with dots (also escaped ones) resolved, unescaped odd characters escaped, and the query up to the fragment.", "quantifier": "all releases of the url crate admitted by the model, all entry points, all request values, all segment and pair lists, all query texts, all visible targets beginning with one slash", "why_tests_cant": "The texts are an infinite set in which single characters (a tab, a caret, an escaped dot) change the meaning.", "anchors": ["src/serializers/url_path.rs:34", "src/serializers/url_path.rs:46", "src/serializers/url_query.rs:28", "src/serializers/rpc_request.rs:58", "src/serializers/rpc_request.rs:228-231", "src/misc.rs:18-22", "src/deserializers/rpc_request.rs:272-274", "src/router.rs:32"]}
{"id": "C60", "title": "Numbers, texts, names and addresses mean what the other properties take them for", "statement": "Integers of paths, queries and headers and the length announced for every body are written as the shortest decimal numeral (no leading zero, no sign but the minus of a negative number). Texts are written as their UTF-8 bytes, and bytes are read as a text only if they are its UTF-8 bytes (no overlong forms, no surrogates, nothing above U+10FFFF); where a query is read leniently, each longest stretch that could begin a character, or else one byte, is replaced by U+FFFD. Header names are compared without regard to the case of ASCII letters and of nothing else. Two methods, path constants or addresses are taken for the same only if they are equal, and the connections of a pool are ordered by address family, address, port and number, without regard to the flow label and scope of an IPv6 address. The headers assumed to travel unchanged are exactly those with a token as name and a value of permitted bytes without blanks around it.", "quantifier": "all integers, texts, byte strings, names, methods, constants, addresses and connection numbers; all requests and responses that are sent", "why_tests_cant": "Each of these is an infinite set of texts or numbers where only boundary cases go wrong (leading zeros, overlong encodings, surrogates, truncated characters).", "anchors": ["src/serializers/url_path.rs:75-98", "src/serializers/http_header.rs:52-97", "src/serializers/rpc_request.rs:42", "src/serializers/rpc_response.rs:50", "src/deserializers/http_header.rs:50", "src/deserializers/http_header.rs:184-188", "src/router.rs:111-112", "src/pool.rs:22-42"]}
{"id": "C61", "title": "With a fair executor every client is served and every request is answered; what one poll of the server may take", "statement": "If the accept loop and a client's connection get their turn again and again, then from some time on the client has been accepted and has had any given number of exchanges of its conversation (or all of it, with its outcome), whatever other clients do; if bodies and handlers come to an end, each request read from a connection is followed by exactly the response specified for it, or the connection is over. The same holds for whole polls as long as each poll comes back. A poll of a connection comes back exactly if somewhere in the conversation there is something to wait for or the conversation ends, and one of the accept loop exactly if sooner or later no client is ready. Hence a client who always has the next request ready is never left: no other connection on that thread is served.", "quantifier": "for all infinite schedules (of rounds or of polls), all networks, clients, procedures, handlers and numbers of exchanges", "why_tests_cant": "Infinite executions and arbitrary interleavings of arbitrarily many connections; the absence of starvation and its exact condition cannot be observed in finitely many runs.", "anchors": ["src/server.rs:131-166", "src/server.rs:180-280"]}
{"id": "C62", "title": "Every call through the pool gets the answer to its own request", "statement": "Many calls go through one connection pool to any number of servers, take turns on kept connections, fail, are dropped, and the pool may die. If each server reads the requests of a connection in the order in which they were written on it, and the responses read on a connection are those the server wrote on it, in order, then every call that finishes has exactly what the client makes of the reply that the server at the call's own address gives to the call's own request (with an empty body for HEAD): never a response meant for another call. Calls for which C50 or C52 say what they come to, come to that. The condition on the order is needed: with two responses exchanged a call finishes with the answer to another.", "quantifier": "for all schedules of pool and calls, all networks that keep the order per connection, all addresses, procedures, requests, handlers and numbers of calls", "why_tests_cant": "Mixing up responses needs a particular interleaving of several calls, failures and reuse of connections; the schedules are unbounded in length and number.", "anchors": ["src/pool.rs:73-88", "src/pool.rs:150-216", "src/pool.rs:290-330", "src/client.rs:82-130", "src/server.rs:180-280"]}
{"id": "C63", "title": "The pool beyond the range of its counter", "statement": "For every history of commands of any length, RpcClientPool's seq_no is the number of releases modulo 2^64. Built without overflow checks the pool panics exactly when a suspension would end past the largest SystemTime, never because the counter started again (neither `expect` in acquire_connection nor the one in drop_exceeded_lru_connections is reached). Every connection released to the pool is handed out at most once and only to a call for the same IP address and port; if no two addresses in the history differ only in IPv6 scope or flow label, only to a call for its very address. Without that condition the last part is false: after 2^64 releases a connection may be handed out for another scope.", "quantifier": "all histories of commands of any length, all pool sizes, durations, clock readings, with and without overflow checks", "why_tests_cant": "The wrap-around needs 2^64 releases.", "anchors": ["src/pool.rs:104", "src/pool.rs:178-224"]}
{"id": "C64", "title": "Maps as queries and headers", "statement": "A map used as the query comes back exactly, except that entries whose value is an absent option are left out; so it comes back unchanged iff no value is absent. Structs, and options and newtypes of structs and maps, come back as a whole. A map used as the headers comes back with one more entry, the Content-Length the library adds, so it never comes back unchanged unless it had that entry itself; if the values of the map cannot be read from a number, the message is refused; and names that differ only in case are merged.", "quantifier": "all key and value types, all maps with distinct keys whose scalars survive the text form, all body lengths", "why_tests_cant": "The interplay of key and value types, absent values and the added header ranges over infinitely many types and maps; the single example of a map in the tests has present string values.", "anchors": ["src/serializers/url_query.rs:159-200", "src/serializers/http_header.rs:162-205", "src/deserializers/url_query.rs:258-325", "src/deserializers/http_header.rs:275-325", "src/serializers/rpc_request.rs:42", "src/serializers/rpc_response.rs:50"]}
{"id": "C65", "title": "A call through a pool is lost only for a cause", "statement": "In every run of a pool and its calls, every call that has ended has a cause visible in the run: a finished call decoded a response that came for it; a failed call's request could not be written, or writing or reading failed for it, or the response that came for it could not be read, or its own attempt to connect failed, or its address was reported by a call whose attempt failed, or the pool is gone, and its error has the kind belonging to that cause; a dropped call was dropped by its user; a panicking call panicked while writing its request or reading its response. A pool is gone only because it was dropped, because an address was reported at a time to which the suspension cannot be added, or, with overflow checks, after 2^64 releases. If all network operations succeed and nobody drops the pool, it stays, no address is reported, and the only failures left are those of writing requests and reading responses.", "quantifier": "all runs: all schedules, all networks, all numbers of calls, all procedures, requests and responses, pool sizes, suspensions, with and without overflow checks", "why_tests_cant": "That there is no further way to lose a call is a claim about all interleavings of calls, the pool task, failures and drops; a test shows one of them.", "anchors": ["src/pool.rs:72-90", "src/pool.rs:148-235", "src/pool.rs:242-330", "src/client.rs:63-131"]}
{"id": "C66", "title": "Calls through a pool come to their own answer in the end", "statement": "If the servers read the requests of each connection in the order in which they were written on it and the responses read on a connection are those written on it, in order, then every response that comes for a call, read or not, is the reply of the server at its own address to its own request. If moreover every network operation that is begun succeeds, nobody drops the pool and its counter suffices, a call of a procedure that the server at its address has, with a request that suits it, never fails and never panics: unless its user drops it, it is under way or has come to exactly the handler's answer. And if the pool and the call get their turns again and again, it has come to that answer from some time on, whatever the other calls sharing the pool do.", "quantifier": "all servers, procedures, requests, bodies, numbers of calls, endless schedules, pool sizes and suspensions, with and without overflow checks", "why_tests_cant": "It is total correctness of the whole path from request value to answer value through pool, connection reuse, serializers, router, handler and back, under every fair interleaving; tests run single calls one after the other.", "anchors": ["src/pool.rs:72-90", "src/pool.rs:148-235", "src/pool.rs:242-330", "src/client.rs:63-131", "src/server.rs"]}
{"id": "C67", "title": "What request targets of every form mean, and exactly which of them crash the connection's task", "statement": "Every request target made of visible ASCII characters has exactly one meaning: it is refused (answered 400), it has a path and perhaps a query, or it is a URL without a path. The meaning is given form by form: origin form, absolute form under http, https, ws, wss, ftp (case-insensitive, any number and kind of slashes), network-path references, file URLs, other schemes with an authority, with a path or with opaque text, and plain texts such as \"*\". The task serving the connection panics on exactly the third kind. In particular every target in authority form \"host:port\" (as CONNECT uses) whose host begins with a letter and is not the name of one of these schemes crashes it, whatever procedures are registered; and a target in absolute form \"http://host/rest\" means the same as \"/rest\".", "quantifier": "for all visible-ASCII targets, all url-crate variants and host/file syntaxes, all servers, procedures and requests with well-formed header names", "why_tests_cant": "The targets are unboundedly many and the forms interact (scheme case, slashes and backslashes, empty hosts, dots, escapes, fragments); tests sample a few well-formed origin-form targets and would never meet CONNECT or opaque URLs.", "anchors": ["src/misc.rs:parse_relative_url", "src/server.rs:HandleHttpRequest::poll_impl", "src/router.rs:Router::route"]}
{"id": "C68", "title": "No wake-up is lost: tasks polled only when woken still finish every call", "statement": "Under an event-driven executor, which polls a task only after something it polled has noted it and woken it, no task is forgotten. In every execution a call through a pool that is not over is to be polled, or has been noted by a network operation it polled last, or waits for a reply while its command is in the queue of a living pool that is awake; the pool sleeps only when its queue is empty. Hence, if the executor polls in the end every task that has been woken, and the network in the end ends every operation and wakes the call that waits for it, then every call is over from some time on, although no sleeping task is ever polled. The executions are executions of the system of C58. A connection of the server, and the accept loop, come back without an end only when the future they are at has itself said that it is not ready.", "quantifier": "for all endless schedules of calls, polls, wake-ups (spurious ones too), drops and pool rounds, all numbers of calls, all networks, pool sizes and suspensions; all connections, handlers and incoming clients", "why_tests_cant": "A lost wake-up hangs one call in one interleaving of sending a command and falling asleep; a test that hangs rarely, or an executor that polls too often, hides it.", "anchors": ["src/pool.rs:RpcClientPool::poll", "src/pool.rs:AcquireConnection::poll", "src/pool.rs:PooledConnection::poll", "src/client.rs:CallInner::poll", "src/server.rs:HandleHttpRequest::poll_impl", "src/server.rs:RpcServer::poll"]}
{"id": "C69", "title": "The base URL for parsing targets is made once, without a data race, and used by every parse", "statement": "Whatever threads call parse_relative_url, however their steps interleave: the base URL is created and written at most once, never changes afterwards, no write to the unsynchronised static can coincide with a read or another write, every read is ordered after the write, and every call returns exactly what parsing its argument against that one base gives. Threads that find the initialisation running do not wait for ever, and nobody panics, since the text \"http://foo/\" parses when \"foo\" is a host. Were it unparsable, no call would return and the static would never be read.", "quantifier": "for all numbers of threads, all interleavings, all targets, all repetitions", "why_tests_cant": "The initialisation happens once per process and a race on it shows only under particular interleavings and memory orders; tests run after it is over.", "anchors": ["src/misc.rs:parse_relative_url"]}
{"id": "C70", "title": "Calls carried as bytes in pieces: every call gets its own answer, with nothing assumed but that bytes arrive in order", "statement": "When the two ends of a connection are HTTP/1.1 parsers and writers over byte streams, and every byte written on one side arrives on the other, in order, cut into pieces in any way, with any delays: every request that fits the limits and has ordinary headers is read exactly as it was written, its body is read to its end and no further, and so are responses; a sequence of calls on one connection gets, call by call, the answer made for it, whether a handler took it, no procedure was found, or the value was not of the handler's type. Such streams exist for every sequence of calls. A stream that ends within a message is an error for the client and the end of the connection for the server; while it is open both wait. Which messages of htrpc fit is stated on the values the user gives.", "quantifier": "for all sequences of calls, procedures, values and bodies that fit, all ways of cutting the bytes, all limits, parser variants, numbers of polls", "why_tests_cant": "Boundaries between reads fall anywhere, and a framing error shows only for particular cuts and particular neighbouring messages; loopback tests see one or two pieces.", "anchors": ["src/server.rs:HandleConnection::poll", "src/server.rs:HandleHttpRequest::poll", "src/client.rs:Call::poll", "src/server.rs:151"]}
{"id": "C71", "title": "Exactly which well-formed calls are refused before routing: too many bytes, too many headers, characters the HTTP parser does not take", "statement": "A request whose head has more bytes or more headers than the server's connection reads, or whose target has a character the HTTP parser does not take, is never answered: the server's task for that connection ends with an error, however the bytes come and whatever procedures are registered. Targets written by the client are printable ASCII without quotes, angle brackets, braces, backslash, backquote and fragment marks. That every call the client can write is answered is false with the server's limits (8096 bytes, 32 headers): a call with 32 headers of its own, one with a path of 8100 characters, and one with a vertical bar in its path (if the parser refuses it) are not.", "quantifier": "for all requests, limits, servers, procedures, pieces and numbers of polls", "why_tests_cant": "Tests use small requests with tame characters; the limits are a literal in one call and the failure is a closed connection, not a response.", "anchors": ["src/server.rs:151", "src/server.rs:HandleConnection::poll", "src/serializers/url_path.rs:UrlPathSerializer"]}
{"id": "C72", "title": "Exactly the ordinary headers travel; others can arrive as other headers or as another request", "statement": "Over a parser that drops the blanks around values, a list of headers arrives as it was sent if and only if every name is a token and every value is free of control characters and of blanks at its ends; over any parser such lists arrive. Whatever bytes a server is sent, the headers it hands to the handler's type are of that kind. Since the serializer passes the caller's text through unchecked, it is false that a header arrives as it was or not at all (one can arrive as two), and false that one call makes one request: a text with line ends in a header field makes the server read a second request, of another method and target. A request that is read always names a target that is not empty, and line ends in front of a request change nothing.", "quantifier": "for all lists of headers, all byte streams, all limits and parser variants; the counterexamples for all url and float variants and all ways of cutting the bytes", "why_tests_cant": "Tests send well-behaved header texts; injection needs particular bytes in a field that the types allow.", "anchors": ["src/serializers/http_header.rs:28", "src/deserializers/http_header.rs:HttpHeaderDeserializer", "src/server.rs:HandleConnection::poll"]}
{"id": "C73", "title": "Calls through a pool whose connections carry bytes: own response, never lost, served in the end", "statement": "Several calls share a pool of connections, kept and used again, and every connection is a pair of byte streams: what comes in at one end is, as far as it goes, what was written at the other, in pieces cut anywhere. At the far ends run servers whose handlers take the body of a request and no more. If the messages are such as HTTP can carry, then every response and body that comes for a call is the reply that the server at the call's address makes of that call's own request, header for header and byte for byte; so a call that finishes has the answer to its own request. If moreover no network operation fails and nobody drops the pool, a call never fails: unless its user drops it, it is under way or has come to the answer that C70 says; and under a schedule that gives the pool and the call their turns again and again it has that answer from some time on, whatever other calls do, fail or leave behind.", "quantifier": "for all pools, numbers of connections kept, servers, procedures, values and bodies that fit, interleavings of calls, ways of cutting the bytes, limits, and schedules with turns for the pool and the call", "why_tests_cant": "One byte left on a kept connection gives every later call on it someone else's response; whether one is left depends on how requests and responses of different calls follow each other on a connection and on where reads end.", "anchors": ["src/pool.rs:ConnectionPool", "src/client.rs:Call::poll", "src/server.rs:HandleConnection::poll", "src/server.rs:HandleHttpRequest::poll"]}
{"id": "C74", "title": "One reply to each request of a connection if bodies are taken; a body that is left is read as requests", "statement": "If the read_body of every request type takes the whole body, the nth reply that the server writes on a connection answers the nth request whose bytes come in, whatever the pieces and wherever the bytes end. If one leaves the body on the connection, as a read_body that has no use for it may, then the server takes the body for the next request: a body that reads as a request gets a reply of its own, so that the sender of a body chooses a second request, and the next call on the connection gets that reply instead of its own.", "quantifier": "for all servers, requests that fit, cuts of the bytes, numbers of rounds; for the second part all requests carried as the body of a request to a handler that leaves it", "why_tests_cant": "Tests of a procedure without a body send none; the confusion needs a client that sends one, and shows in another call.", "anchors": ["src/server.rs:add_handler", "src/server.rs:HandleConnection::poll", "src/procedure.rs:RpcRequest::read_body"]}
{"id": "C75", "title": "A client and a server joined by bounded byte pipes answer every call, unless a handler answers before a long body has come", "statement": "A client makes calls one after the other over one connection to the server; each direction of the connection holds at most so many bytes, and client, server and handler have turns in any order, in each of which at most so many bytes go through. If the handlers wait for the bodies of their requests, then at any time the answers the client has are the first of the right ones, neither end has failed, bytes are on the way in one direction only, and the two never wait for each other; if each goes on having turns, every answer comes. If instead a handler answers without waiting for the body, and neither the rest of the request nor the answer has room on the way, client and server wait for each other for ever, whatever the order of turns.", "quantifier": "for all schemas, calls with answers, orders and sizes of turns, sizes of the pipes; for the deadlock all calls with a body and an answer larger than the pipes", "why_tests_cant": "Over loopback the pipes are far larger than the messages of tests, and the kernel chooses the order of turns.", "anchors": ["src/client.rs:Call::poll", "src/server.rs:HandleConnection::poll", "src/server.rs:add_handler"]}
{"id": "C76", "title": "What is made of a connection depends on its bytes alone, and nothing that comes later changes what was made of the earlier", "statement": "Whatever bytes come on a connection, sent by an htrpc client or not: reading a request comes to exactly what the parser makes of the first of them, as many as the buffer holds, and leaves exactly the bytes after the head; garbage and heads that fill the buffer are HTTP errors, a stream that ends within a head is an unexpected end. Hence the replies the server makes to the bytes that have come on one connection are the first of the replies it makes on every other connection whose bytes begin with these, however they are cut into pieces and whatever follows; and if the server has ended the first connection it ends the second with the same replies and in the same way. Likewise a call that has come to an end comes to the same end, with the same value and body and the connection in the same place.", "quantifier": "for all byte streams, pieces, continuations, limits, schemas and handlers that go by the bytes of bodies (C76_readers and C76_leavers: those that read them to the end, and those that leave them)", "why_tests_cant": "Tests send whole well-formed messages over loopback; there are infinitely many byte streams and cuts, and the kernel chooses the cuts.", "anchors": ["src/server.rs:HandleConnection::poll", "src/server.rs:reply_error", "src/client.rs:Call::poll", "src/server.rs:add_handler"]}
{"id": "C77", "title": "The bytes of messages determine the messages, but not the procedure called", "statement": "No request that fits the limits and has ordinary headers is the beginning of the bytes of another one, so the bytes of a connection determine the requests on it, one after the other, and what has come so far determines the first of them; likewise responses. Two calls of one procedure whose values are such as arrive unchanged, and that put the same bytes on a connection, have the same value and the same body; so have two answers of one response type. It is false that the bytes name the procedure (calls of two procedures can be the same request), and false that every two values of a request type differ on the wire (tabs in paths are not written).", "quantifier": "for all requests and responses that fit, all sequences of them, all bytes that follow, all values, bodies, entry points, limits, reason phrases and releases of the url crate", "why_tests_cant": "Ambiguity is a property of pairs of messages, of which there are infinitely many; tests look at one message at a time.", "anchors": ["src/serializers/rpc_request.rs:RpcRequestSerializer", "src/serializers/rpc_response.rs:RpcResponseSerializer", "src/client.rs:Call::poll", "src/server.rs:HandleConnection::poll"]}
{"id": "C78", "title": "Connecting ends by its timeout, exactly then, and so does every call whose connection answers", "statement": "With the timeout of connecting apart from the network: a poll of a call that is opening a connection yields the connection if it is there and its error if it failed; if neither, the call is given up with an error of kind Other and its address is reported exactly if the connect timeout, counted from when the pool handed it the connection, is over, and it goes on waiting otherwise. Hence a call ends whatever becomes of connections being opened and of other calls, if the pool gets its turn, the call is polled again and again, the clock goes on, and the call's own connection, once open, answers. Every run with timeouts is event for event a run of the system without, so the other properties of the pool hold of it. It is false that the timeout bounds the whole call.", "quantifier": "for all schedules with times, all outcomes of connecting (also none), all numbers of calls, pool sizes, timeouts, wall clocks", "why_tests_cant": "Timeouts depend on the interleaving of polls with a clock; tests with real time sample few interleavings, and that a call ends is a statement about endless schedules.", "anchors": ["src/pool.rs:195-199", "src/pool.rs:73-88", "src/error.rs:75-83"]}
{"id": "C79", "title": "The order of headers, query parameters and JSON members does not matter, where they are read by name", "statement": "A request whose query and headers are read by name (structs, possibly inside newtypes and options) and whose parameters are all known comes to the same value, or is refused alike, whatever the order of its parameters and headers and whatever the case of its header names. So does a response. A JSON document comes to the same value of a type without maps, as a field to the same field and as a problem to the same problem, whatever the order of the members of its objects at any depth and however it is spelt. It is false with an unknown query parameter: the order then decides between different values and a refusal; and it is false of types that are not read by name: a lone value is the name of the first header.", "quantifier": "for all request, response and document types of the stated forms, all targets, header lists, documents and their permutations, also those that are refused", "why_tests_cant": "The number of permutations is factorial in the number of parts and they combine with all types and contents; tests use the order in which the client writes.", "anchors": ["src/deserializers/url_query.rs:267-365", "src/deserializers/http_header.rs:284-351", "src/deserializers/rpc_request.rs:230-285", "src/deserializers/rpc_response.rs:219-377", "src/json.rs:9-33", "src/rfc7807.rs:118-238"]}
{"id": "C80", "title": "A connection costs at most one call", "statement": "Among calls through a pool, no two that failed, panicked or were dropped used the same connection, so no more calls are lost on connections than connections were opened; and if at some time all connections there are stop working, say because the server is started anew, then no more of the calls that were not over are lost on them than there are connections held at that time by calls, by the pool or on their way between them. It is false that a call through the pool fares no worse than on a connection of its own: an idle connection is handed out unchecked, and a call that fails on it is not done again, though without the pool's idle connections the same call is answered.", "quantifier": "for all pool sizes, procedures, schedules of calls, polls, drops and pool turns, numbers of calls, and networks (each poll with its own), and all times at which the connections stop working", "why_tests_cant": "Which calls meet a dead connection depends on the interleaving of the calls, the pool's turns and the failure; the bound is over all of them and any number of calls.", "anchors": ["src/pool.rs:147-230", "src/pool.rs:231-330"]}
{"id": "C81", "title": "The addresses a pool keeps as suspended", "statement": "After any history that does not panic, the pool keeps an address as suspended, once and with the end of its suspension, exactly if the address was reported and since its last report was not asked for at or after that end. So it keeps no more addresses than different ones were reported, and in a running pool no more than calls that failed to connect, one of which there is for every address kept. It is false that an address is forgotten when its suspension is over: there is no bound on the addresses kept, nor on how long, other than the number of addresses.", "quantifier": "for all pool sizes, durations of suspension, histories of commands and clock readings (also going backwards), with and without overflow checks; for the calls: for all schedules", "why_tests_cant": "The list is not observable from outside and the claim is about all histories; its growth shows only over long times with many addresses.", "anchors": ["src/pool.rs:147-177", "src/pool.rs:280-330"]}
{"id": "C82", "title": "Messages between old and new versions of a type", "statement": "A request that a type reads is read by every newer version of the type as the same value with the new fields absent. Newer means: optional fields added to the query or to the headers, fields reordered, numbers given a wider range, required fields made optional. This holds if the old type knows all parameters of the query and no header has the name of a new field, so every call of an old client arrives at the handler of a newer server saying the same. Responses likewise; a newer response type may also have further variants. The other way round, an old type reads its own fields from headers written for a newer one, and refuses a variant it does not have. New query parameters that come after the old ones are harmless to an old server exactly if none of their values, but for the very last, is the name of an old field; an optional parameter in front can make an old server hand another value to its handler.", "quantifier": "all types and newer versions of them, all requests and responses, all entry points and registrations, all URL, float and HTTP environments", "why_tests_cant": "A test compares two chosen versions with chosen values; whether a field can be added without breaking deployed clients and servers is a statement about all pairs of versions and all messages.", "anchors": ["src/deserializers/url_query.rs:258-325", "src/deserializers/http_header.rs:275-342", "src/deserializers/rpc_request.rs:222-284", "src/deserializers/rpc_response.rs:215-310"]}
{"id": "C83", "title": "JSON documents between versions of a type", "statement": "The JSON text htrpc writes for a value of a type, compact or pretty, is read by every type the first is readable as, as a value of that type saying the same. Readable as means: numbers get a wider range, characters become strings, required values optional, newtypes come and go; structs lose fields, get optional ones and another order; enums get variants; all this at any depth. Fields the reader does not know are skipped; fields the writer does not know are absent. So it is between fields declared with htrpc::json or htrpc::json_pretty, whichever form each side has. A text with something the reader cannot know (a variant it does not have, a number out of its range, null or no field where it requires a value) is refused, however deep it is. This is about what htrpc writes: for a document that gives a struct as an array, adding an optional field or reordering fields makes the newer type refuse it or read other values.", "quantifier": "all types and readers of them, all values that JSON keeps apart, all float environments, nesting below 128", "why_tests_cant": "A test compares two chosen versions with chosen values; whether a type can be changed without breaking stored or sent documents is a statement about all pairs of types related so, at any depth.", "anchors": ["src/json.rs:13-33", "src/json_pretty.rs:13-22"]}
{"id": "C84", "title": "Messages that do not say how long their body is", "statement": "Whatever bytes come and however they are cut: a request whose headers include neither Content-Length nor Transfer-Encoding is not replied to while its connection is open, whatever follows it and whether or not there is a procedure for it, if the handlers read bodies to their end. Once the client has closed its side, everything it sent after the head is the body, further requests included; the server replies at most once, with what the procedure makes of all these bytes if they are taken, and the connection is over. A call (other than HEAD) whose response has no length does not end while its connection is open; once the server has closed, all that follows is the body, and the connection the call gives back fails the next call. So an interim response (100 Continue), or a bodiless one of another server that gives no length, holds a call until the connection is closed.", "quantifier": "all byte streams and cuttings, headers, sets of procedures that read bodies to their end, procedures called, limits, numbers of rounds and polls", "why_tests_cant": "htrpc's own client and server always write a length, so its tests never see such a message; that nothing ever comes is a statement about all continuations and all numbers of polls.", "anchors": ["src/server.rs:185-212", "src/server.rs:254-265", "src/client.rs:96-118"]}
{"id": "C85", "title": "The server carries nothing from one client to another", "statement": "Two servers with the same procedures, with any other clients, listeners and schedules: if a client of the second sends what a client of the first sends (and more only if the first may go on), in whatever pieces and however long connecting takes, then what the two are replied agrees as far as both connections have got: one list of replies begins with the other. If the first connection is over, the second is replied nothing more, and when it is over too it has been replied the same and ended in the same way. If the second server lets its connection and its accept loop have turns again and again, then everything the first client was replied is replied to the second in the end, and its connection ends in the same way. So no other client, whether it crashes its task, sends garbage or keeps silent, and no accident of timing changes what a client is replied.", "quantifier": "all pairs of listeners, sets of other clients, finite schedules (and fair infinite ones), positions of the two clients, byte streams and cuttings, sets of procedures that go by the bytes", "why_tests_cant": "A test compares chosen clients in the interleavings that happen; that nothing leaks from one connection into another is a statement about pairs of runs, over all other clients and all schedules.", "anchors": ["src/server.rs:131-166", "src/server.rs:150-160", "src/server.rs:180-280"]}
{"id": "C86", "title": "A server polled only when woken serves every client", "statement": "An event-driven executor polls the server's accept loop once at the start, each connection once when it is spawned, and otherwise only a task that was woken; and a task can be woken only if the future it is at answered that it is not ready in the last round of its last poll. Even so no wake-up is lost: at any time, whatever is polled and woken and in whatever order, the accept loop and every connection that is not over are about to be polled, or asleep with their future having taken note of them. So if the executor polls in the end what is due, what is taken note of is woken in the end unless it waits for something that never comes, and polls come back, then every client that comes has every exchange of its conversation, with its ending, from some time on; and every request that is read is answered right after by the response the specification gives, or the connection is over as it says. The polls are those of C61.", "quantifier": "all procedures, links, listeners, clients, infinite sequences of polls and wake-ups (the last two theorems: those that poll what is due and wake what is noted), numbers of exchanges", "why_tests_cant": "A lost wake-up shows as a connection that hangs in one interleaving of many; that there is none is a statement about every state of every schedule, and that the clients are served is one about infinite runs.", "anchors": ["src/server.rs:131-166", "src/server.rs:133", "src/server.rs:159", "src/server.rs:180-280"]}
{"id": "C87", "title": "The server is a function of the bytes it is sent, and so is a call", "statement": "What the server writes on a connection, and how the connection ends, is a function, written down without reference to the state machines, of nothing but the bytes that come on the connection and whether it is closed after them: at any time the responses written are the first of those this function gives, when the connection is over they are all of them and it is over in the way the function gives, and in the end all are written and it is over unless the function says that something is waited for. The function reads a head from as many bytes as the buffer holds, takes as the body as many bytes as the one Content-Length says or everything up to the end, replies as routing, decoding and the handler determine, and goes on with the bytes that remain; it ends because every request takes at least a byte. Likewise a call comes to what a function of the bytes that come back says, with a connection on which the bytes after its response are still to be read, and so do calls made one after the other.", "quantifier": "all byte streams, well-formed or not, however cut into pieces, open or closed; all procedures whose handlers read the body to the end or leave it alone; all limits, calls and numbers of rounds", "why_tests_cant": "Every byte stream in every division into pieces, including hostile ones, is one statement; a test sends some streams in the pieces the kernel happens to make.", "anchors": ["src/server.rs:64-67", "src/server.rs:151", "src/server.rs:180-280", "src/client.rs:88-119", "src/lib.rs:25-33"]}
{"id": "C88", "title": "Timers wake too: a call polled only when woken ends though connecting never does", "statement": "With the timer of connecting as a thing of its own that takes note of a task when it is polled and wakes it only once its time has come: no wake-up is lost, so a call that is not over is always to be polled, or noted by what it waits for, or the pool is awake and has its command. Hence a call ends if the executor polls it when it is woken, the pool's loop goes on, the network answers and wakes it once it is connected, and its timer runs out some time after it is due; nothing is asked of the network while the call is connecting, nor of any other call. Every such run goes through a run of the system of C78. Without the timer it is false: the call then sleeps for ever.", "quantifier": "for all endless schedules of calls, polls, wake-ups (spurious ones too), timers, drops and pool rounds with times that do not go back, all outcomes of connecting (also none), all numbers of calls, pool sizes, suspensions and timeouts", "why_tests_cant": "A lost wake-up shows only in one order of polls, wake-ups and timers out of infinitely many, and a test cannot tell a call that sleeps for ever from a slow one.", "anchors": ["src/pool.rs:75-88", "src/pool.rs:195-199", "src/pool.rs:290-330"]}
{"id": "C89", "title": "What the server keeps of the bytes that come: bounded by the buffer and the body in hand, but a refused body is kept whole", "statement": "Whatever a peer sends, whenever, and however much the server reads at a time: of the bytes of a connection the server keeps at most what its buffer holds while it reads the head of a request, and at most that or the length the request gives while it reads a body; what it writes is what C87 says. But a request for which there is no procedure is answered, always the same, only when all of its body has come, and until then every byte of the body is kept; so there is no bound on what a peer can make the server keep, and a request without a length that is refused is not answered at all while the peer goes on.", "quantifier": "for all servers whose handlers take or leave bodies, all bytes sent, all sizes of reads and orders of sending and reading; for refused requests all bodies of all lengths", "why_tests_cant": "The bound is on every moment of every execution, under every way of cutting the stream; its absence for refused requests is a statement about arbitrarily long bodies.", "anchors": ["src/server.rs:63-66", "src/server.rs:151", "src/server.rs:213-219", "src/server.rs:231-236"]}
{"id": "C90", "title": "Entry points are what is written in the macro", "statement": "htrpc_entry_point! accepts exactly the texts and underscores with a comma between each two and none at the end, and makes of them the entry point with these segments in this order, so every entry point is written in exactly one way. It has as many variables as there are underscores; it fits a path exactly if there is one segment for each token, any for an underscore and the same for a text; a request is routed to a handler only by a path that what is written there allows; and a registration is refused exactly if the same is written for an earlier one of the same method.", "quantifier": "for all sequences of tokens in the macro, all paths, all tables of registrations", "why_tests_cant": "The doc tests expand one macro; that nothing else is accepted and that no two texts give the same entry point are statements about all of them.", "anchors": ["src/lib.rs:60-81", "src/procedure.rs:60-122"]}
{"id": "C91", "title": "A handler is run at most once for a request", "statement": "On a connection a handler is run only right after a request has been read, with nothing in between, and nothing happens after it before the response is written; so between two runs a response is written and another request read. For each request that is read, in whatever way the network behaves, exactly the run happens that the request is worth: one, of the procedure for its path and method, with what the procedure made of it and its body, or none if there is no such procedure, it is not of the procedure's type, or its body does not come. Which runs happen depends only on the bytes that come, not on the pieces they come in. When requests are sent one after the other to handlers that read their bodies, and the bytes are cut off anywhere, the runs are those of the first requests, in order, each at most once, with the value and body that its caller gave: of all that are answered, of at most one that is not, and of none whose bytes have not come to their end.", "quantifier": "for all servers, networks, handlers, bytes, ways of cutting them, points at which they end, numbers of rounds", "why_tests_cant": "A second run in some order of polls, or the run of a request cut short, needs a particular order of readiness; tests poll with whatever the machine does.", "anchors": ["src/server.rs:55-99", "src/server.rs:180-280"]}
{"id": "C92", "title": "However calls share a pool, each is run at most once", "statement": "Of the calls made through a connection pool none writes its request twice, on the same connection or on another: there is no second attempt, whatever the pool, the network and the users do, and what it writes is the request of its own procedure, value and body. With servers at the other ends of the connections, whose handlers read their bodies, and which have received any part of what was written: after any number of rounds of each of them, on any set of connections, the handlers run are exactly those that the requests of some of the calls are worth, and no call is among these twice, on one connection or on two. A call that failed, was dropped, or never got its answer may be among them, but not twice. A call that has finished is among those of a connection to its own address, exactly once.", "quantifier": "for all schedules, pools, numbers of calls and connections, networks, servers, cuts of the bytes, numbers of rounds", "why_tests_cant": "A call that is attempted again after a connection was lost, or a response that is read by a call other than the one whose request it answers, needs failures and drops at particular points of an interleaving of many calls.", "anchors": ["src/client.rs:49-146", "src/pool.rs:49-120", "src/pool.rs:168-330", "src/server.rs:180-280"]}
{"id": "C93", "title": "Whatever servers send, the calls over a connection get its responses in turn; these need not be answers to them", "statement": "Nothing being assumed of the bytes that come from servers: a call through a connection pool that has finished did so over a connection to its own address, with exactly the value and body that a function of nothing but the bytes of this connection gives, when the calls that wrote on it are given its responses in the order in which they wrote. So no bytes of one connection come into the answer of a call over another, none are read twice or passed over, and hostile bytes reach only the calls that use their connection. All calls that wrote on a connection, except at most the last, found their response there: after garbage, an error or a response not of the type nothing is written on a connection any more. But a response is not required to have come after the request: there is a run in which everything that the peer ever sends has been read before a second call is made, and the second call then finishes with the surplus response that was in the buffer (refuted).", "quantifier": "for all byte streams of all connections, well-formed or not, all schedules, pools, numbers of calls, and networks that may also fail at any point", "why_tests_cant": "Every byte stream on every connection under every interleaving of calls is one statement; tests talk to servers that behave.", "anchors": ["src/client.rs:82-130", "src/pool.rs:73-88", "src/pool.rs:168-235", "src/pool.rs:290-330"]}
{"id": "C94", "title": "What a call keeps of the bytes that come is bounded by the buffer and the length of the body, and by nothing when there is no length", "statement": "While a call reads the head of a response, and once it has ended, it keeps no more bytes than the connection's buffer holds; while it reads a body with a Content-Length no more than that length or the buffer; with the method HEAD, whose responses' bodies are not read, never more than the buffer. However the bytes are cut into reads, the call comes to what C87 says of the bytes as a whole, with the unused bytes left on the connection, or waits. Whether status and headers are ones that the procedure's response type knows is looked at only after the body: a response that will be refused is kept byte for byte until it is complete, and fails the call only then. A response without a length therefore makes a call of any other procedure keep any number of bytes (a bound is refuted), and it is not even refused before the connection is closed.", "quantifier": "for all procedures, bytes sent, places where they are cut, sizes of reads, moments of closing, limits of the parser and bytes already in the buffer", "why_tests_cant": "A test sees one response in one segmentation, and memory kept is not visible in its result; that no bound exists is a statement about all sizes.", "anchors": ["src/client.rs:99-116", "src/client.rs:117-129"]}
{"id": "C95", "title": "The load that calls through a pool make: connections, openings and queued commands; the pool's size does not bound the connections", "statement": "At every moment the connections that exist anywhere (in calls, in commands on their way, idle in the pool) are at most the pool's size plus the calls going on plus the connections given back and not yet taken by the pool; at most one connection was ever opened for each call that got past connecting; and at most one command waits for the pool for each call made and one more for each call that came to an end. So nothing grows with time, only with the calls. But the size of the pool is not a bound on connections: whatever it is, for every n there is a run in which n calls to one address hold n different connections at once (refuted).", "quantifier": "for all pool sizes, schedules, numbers of calls, addresses, drops of calls and of the pool, and all behaviours of the network, honest or not", "why_tests_cant": "A leak shows only in executions longer than a test, or under the one interleaving that loses count; the bound is on all executions of any length.", "anchors": ["src/pool.rs:73-88", "src/pool.rs:116-129", "src/pool.rs:168-224", "src/pool.rs:246-261", "src/pool.rs:322-329"]}
{"id": "C96", "title": "A pool's addresses do not touch one another, but for the room", "statement": "If at no time more connections would be idle than the pool has room for, then what the pool answers to the commands about one address (which connection is handed out, whether a new one is to be opened, whether and until when the address is suspended) is what it would answer if the commands about all other addresses were left out, and the same connections to the address are idle at the end. Suspensions are independent in this way even without room. Without room the rest is not: in a pool of any size, connections given back for another address push out the only connection to this one, so that the next call to it must connect anew (refuted).", "quantifier": "for all histories of commands about any number of addresses (that do not differ in IPv6 scope or flow label only), all times, pool sizes and durations of suspension", "why_tests_cant": "Independence compares every history with the history that is left when the others' commands are removed; a test can compare only single pairs.", "anchors": ["src/pool.rs:148-177", "src/pool.rs:178-205", "src/pool.rs:206-224"]}
{"id": "C97", "title": "What was decoded can be sent on", "statement": "Whatever target and headers a request came with: if it was decoded as a type whose scalars are integers and texts (in headers also bytes and unit structs), then what was decoded can be encoded again for the same procedure, the message arrives at the same handler and is decoded there as the same request. With integers only in the path this asks of the values only that no other entry point has a constant where the number is put; strings in the path must be fit for one. A response that was decoded as an enum of statuses or as a struct with a known status number can likewise be sent on and is read as the same response. Without these conditions it is false (refuted): a string in the path that is not ASCII is another string at the next hop, a number that came as +7 goes on as 7 and may so reach another handler, a true that was read is refused at the next hop, and a struct with an unnamed status is read but cannot be sent.", "quantifier": "for all targets, headers that HTTP can carry, entry points with literal constants, registrations, request and response types of the kind, body lengths, url releases and HTTP layers", "why_tests_cant": "The messages that decode are not only those a client of the library writes (signs, leading zeros, escapes, invalid UTF-8, unknown keys, capitals in names); the claim is about all of them, for all types.", "anchors": ["src/serializers/rpc_request.rs:16-60", "src/deserializers/rpc_request.rs:232-284", "src/serializers/rpc_response.rs:15-60", "src/deserializers/rpc_response.rs:225-268", "src/deserializers/url_path.rs:331-361", "src/deserializers/http_header.rs:37-43"]}
{"id": "C98", "title": "How many connections calls use up", "statement": "If no more than k(a) calls to each address a ever go on at the same time, and the pool has room for that many connections to all the addresses together, then no more than k(a) connections are ever opened to a, plus one for each call to a that failed, panicked or was dropped, whatever the order in which the pool and the calls are polled and however late the pool takes back what was released. In particular one connection to each address serves any number of successful calls made one after the other. Without the room it is false (two addresses in turn through a pool of size 1 take a new connection each time), and so it is when two addresses share IP and port (each call to the second one opens a new connection while one to the first is idle).", "quantifier": "for all schedules of fewer than 2^64 steps, networks, numbers of calls, procedures and requests, address sets without aliases, pool sizes, suspension times and clocks, with and without overflow checks", "why_tests_cant": "It is an invariant of all interleavings of calls, polls, drops and the pool's own turns, over the queue of commands that are still under way; a test drives a few schedules.", "anchors": ["src/pool.rs:148-177", "src/pool.rs:180-224", "src/pool.rs:229-235", "src/pool.rs:246-261", "src/pool.rs:297-307", "src/pool.rs:322-329"]}
{"id": "C99", "title": "What one more procedure does to the requests of the others", "statement": "After one more registration every request is treated either as before or as if the new procedure were the only one, so none ever goes to another of the old procedures. A request that was served by entry point e stays with it, whatever is added, unless the new entry point begins like e and then has the URL's constant where e has a variable; in that case it goes to the new procedure if that has the same method and matches the whole path, and otherwise it is refused, though it was served before. So procedures whose entry points have constants only never lose a request, and what has no constant where e has a variable takes none from e. It is false that procedures of different methods leave each other's requests alone (adding POST /users/import makes GET /users/import be answered 405 though GET /users/<id> serves it before).", "quantifier": "for all registration histories (with conflicts), additions, methods, entry points and paths", "why_tests_cant": "It compares the routing of every request in two servers, for all tables; a test looks up some paths in one table.", "anchors": ["src/router.rs:26-41", "src/router.rs:56-67", "src/router.rs:79-104", "src/router.rs:121-129"]}
{"id": "C100", "title": "Exactly which tables of procedures lose no request", "statement": "Every registered procedure gets all the requests of its method that match its entry point if and only if no two registered entry points clash, that is, begin alike and then have a variable in the one and a constant in the other, whatever their methods are. Then routing is what any search of the table would be, a path that is there is answered 405 exactly if it is not there for the method, and further registrations that do not clash take no request away; and every call of every client comes to its own procedure and back whatever the values of its variables are. Whether a table is free of clashes can be computed from the entry points. Wherever two procedures clash (with constants that URLs keep) there is a call a client can make to one of them, if its variables are texts, that does not come to it. With clashes a path that is there can be answered 404, and one that is there for the method 405.", "quantifier": "for all tables (with conflicts), methods, entry points, paths, values of variables, and all calls that C50 is about", "why_tests_cant": "It is an equivalence between a condition on the table and the routing of infinitely many paths.", "anchors": ["src/router.rs:26-41", "src/router.rs:79-104", "src/router.rs:121-129", "src/server.rs:100-103"]}
{"id": "C101", "title": "Procedures added to a server change nothing for what they are not asked", "statement": "Two servers with whatever procedures do the same, event for event and to the last state, for every schedule, network and user code, as long as both send the requests that are read the same way. So procedures can be added to a server, if no two clash (C100), and clients that ask for the old ones see no difference at all; the order of the registrations makes no difference unless there is a conflict, and neither does a registration that is refused. With a clash it is false: adding POST /items/7, which nobody asks for, makes the server answer 405 to GET /items/7, which it answered 200.", "quantifier": "for all lists of procedures, schedules of the accept loop and the connections, links (what the network does), user code and listeners", "why_tests_cant": "It compares all runs of two servers under all schedules.", "anchors": ["src/server.rs:49-104", "src/server.rs:131-166", "src/server.rs:181-270", "src/router.rs:26-41"]}
