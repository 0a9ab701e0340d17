{"id": "C01", "title": "gRPC actions wait for the actions they must follow", "statement": "In every execution, the external call of a gRPC action is sent only after every action it has to wait for (per the execution plan of its action set) has completed.", "quantifier": "all task sets, all host behaviours, all interleavings of HTTP phases and gRPC responses", "why_tests_cant": "depends on every interleaving of responses and phase callbacks", "anchors": ["crates/kuadrant-filter/src/kuadrant/pipeline/executor.rs:process_tasks", "crates/kuadrant-filter/src/kuadrant/pipeline/executor.rs:digest", "crates/kuadrant-filter/src/kuadrant/pipeline/tasks/dynamic.rs:apply"]}
{"id": "C02", "title": "The execution plan orders actions around sequential ones", "statement": "For any list of typed actions: a sequential action waits for every earlier action; every action after a sequential one waits for it; two parallel actions with no sequential action at or between them are not ordered by the plan.", "quantifier": "all lists of typed action configurations, of any length", "why_tests_cant": "unbounded lists and transitive ordering", "anchors": ["crates/kuadrant-filter/src/kuadrant/pipeline/blueprint.rs:compute_dependencies"]}
{"id": "C03", "title": "Sequential ordering holds for every kind of action", "statement": "A deny, headers, store or fail action marked sequential runs only after all earlier actions of the set completed (README: a sequential action waits for all prior actions).", "quantifier": "all action sets and executions", "why_tests_cant": "needs every interleaving with in-flight calls", "anchors": ["crates/kuadrant-filter/src/kuadrant/pipeline/blueprint.rs:to_core_task", "crates/kuadrant-filter/src/kuadrant/pipeline/executor.rs:process_tasks", "README.md"]}
{"id": "C04", "title": "Nothing runs after termination", "statement": "Once a terminal action ends processing, no further configured action is evaluated, no further service call except teardown exports is sent and no further header or property is written, whatever events follow.", "quantifier": "all pipelines, all later event sequences", "why_tests_cant": "ranges over all continuations", "anchors": ["crates/kuadrant-filter/src/kuadrant/pipeline/executor.rs:process_tasks", "crates/kuadrant-filter/src/kuadrant/pipeline/executor.rs:digest", "crates/kuadrant-filter/src/kuadrant/pipeline/executor.rs:execute_teardown"]}
{"id": "C05", "title": "A pipeline is reported complete exactly when no work is left", "statement": "Evaluation reports Completed iff no action is queued and no call is in flight; the resume flag it carries is true iff processing was not terminated.", "quantifier": "all pipeline states and events", "why_tests_cant": "invariant over all reachable states", "anchors": ["crates/kuadrant-filter/src/kuadrant/pipeline/executor.rs:PipelineState", "crates/kuadrant-filter/src/kuadrant/pipeline/executor.rs:eval"]}
{"id": "C06", "title": "Unknown, stale or duplicate response tokens are harmless", "statement": "A response whose token matches no in-flight call has exactly the effect of re-evaluating the queue: no handler runs, nothing in flight is lost and no other call is completed by it.", "quantifier": "all pipeline states, all tokens, statuses and sizes", "why_tests_cant": "adversarial hosts/any history", "anchors": ["crates/kuadrant-filter/src/kuadrant/pipeline/executor.rs:digest"]}
{"id": "C07", "title": "Each response is handled exactly once by the call that caused it", "statement": "The handler of an in-flight call runs at most once, only when a response for its own token arrives, and no status of one response is ever seen by the handler of another.", "quantifier": "all pipelines, all response orders and duplicates", "why_tests_cant": "all orders of concurrent responses", "anchors": ["crates/kuadrant-filter/src/kuadrant/pipeline/executor.rs:digest", "crates/kuadrant-filter/src/kuadrant/context.rs:set_grpc_response_data", "crates/kuadrant-filter/src/kuadrant/context.rs:get_grpc_response_data"]}
{"id": "C08", "title": "Pause counter equals the guard calls in flight", "statement": "While processing has not been terminated, the filter's pause counter equals the number of in-flight calls made by guard actions; in particular it is zero when none is in flight.", "quantifier": "all action sets, hosts issuing tokens distinct from those in flight, all event orders", "why_tests_cant": "counter balance over all schedules", "anchors": ["crates/kuadrant-filter/src/kuadrant/pipeline/tasks/dynamic.rs:apply", "crates/kuadrant-filter/src/kuadrant/context.rs:Barrier", "crates/kuadrant-filter/src/kuadrant/pipeline/executor.rs:digest"]}
{"id": "C09", "title": "A phase is held while a guard call is in flight", "statement": "Every HTTP phase callback that ends with a guard action's call in flight returns Pause, so later filters and the upstream never see the request before the guard answered.", "quantifier": "all executions of the filter before termination", "why_tests_cant": "all schedules", "anchors": ["crates/wasm-shim/src/filter/kuadrant_filter.rs:on_http_request_headers", "crates/wasm-shim/src/filter/kuadrant_filter.rs:on_http_request_body", "crates/wasm-shim/src/filter/kuadrant_filter.rs:on_http_response_headers", "crates/wasm-shim/src/filter/kuadrant_filter.rs:on_http_response_body"]}
{"id": "C10", "title": "A terminated request is not held by abandoned guard calls", "statement": "After a terminal reply has been sent, the response to that reply is not paused because some other guard call was still in flight; abandoned calls release their hold.", "quantifier": "all executions ending in termination with calls still in flight", "why_tests_cant": "needs concurrent guards plus early denial", "anchors": ["crates/kuadrant-filter/src/kuadrant/pipeline/executor.rs:replace_deferred_with_noop", "crates/kuadrant-filter/src/kuadrant/pipeline/tasks/failure_mode.rs", "crates/kuadrant-filter/src/kuadrant/pipeline/tasks/tracing_decorator.rs"]}
{"id": "C11", "title": "failureMode deny rejects the request", "statement": "If a top-level gRPC action of a service with failureMode deny fails when first evaluated, or its call returns a non-OK status or an undecodable reply, the 500 reply is sent, the error metric is incremented and no later action runs.", "quantifier": "all contexts, services, statuses and queue contents", "why_tests_cant": "all failure points", "anchors": ["crates/kuadrant-filter/src/kuadrant/pipeline/tasks/failure_mode.rs", "crates/kuadrant-filter/src/kuadrant/pipeline/tasks/dynamic.rs:process_dynamic_response", "crates/kuadrant-filter/src/kuadrant/pipeline/blueprint.rs:to_tasks"]}
{"id": "C12", "title": "failureMode allow lets the request through", "statement": "If such an action's service has failureMode allow, the failure sends no reply, increments the error metric, counts as completion (dependents are released) and the remaining actions run.", "quantifier": "all contexts, services, statuses and queue contents", "why_tests_cant": "all failure points", "anchors": ["crates/kuadrant-filter/src/kuadrant/pipeline/tasks/failure_mode.rs", "crates/kuadrant-filter/src/kuadrant/pipeline/executor.rs:process_tasks"]}
{"id": "C13", "title": "failureMode also governs actions that had to wait for data", "statement": "An action of a deny-mode service that fails after having waited for attributes or body data rejects the request just as one that fails immediately.", "quantifier": "all executions in which the action was postponed", "why_tests_cant": "needs a multi-phase history", "anchors": ["crates/kuadrant-filter/src/kuadrant/pipeline/tasks/failure_mode.rs", "crates/kuadrant-filter/src/kuadrant/pipeline/tasks/dynamic.rs:apply"]}
{"id": "C14", "title": "failureMode governs the actions run on a reply", "statement": "If an action configured to run on the reply of a deny-mode service fails, the request is rejected.", "quantifier": "all onReply actions and failures", "why_tests_cant": "all failure points", "anchors": ["crates/kuadrant-filter/src/kuadrant/pipeline/blueprint.rs:to_core_task", "crates/kuadrant-filter/src/kuadrant/pipeline/tasks/failure_mode.rs", "crates/kuadrant-filter/src/kuadrant/pipeline/executor.rs:process_tasks"]}
{"id": "C15", "title": "Reply actions run in order before anything queued", "statement": "When a call succeeds, its onReply actions are evaluated in configuration order, each at least once, before any other queued action, until one of them terminates processing.", "quantifier": "all pipelines, onReply lists and queues", "why_tests_cant": "unbounded lists, nested replies", "anchors": ["crates/kuadrant-filter/src/kuadrant/pipeline/executor.rs:digest", "crates/kuadrant-filter/src/kuadrant/pipeline/tasks/dynamic.rs:process_dynamic_response"]}
{"id": "C16", "title": "A terminal action stops everything after it", "statement": "When an action evaluates to termination, the actions after it in the same pass are not evaluated, the queue is emptied and processing is marked terminated.", "quantifier": "all queues and positions of the terminal action", "why_tests_cant": "unbounded queues", "anchors": ["crates/kuadrant-filter/src/kuadrant/pipeline/executor.rs:process_tasks"]}
{"id": "C17", "title": "At most one reply per request", "statement": "If every deny action is terminal, at most one local reply is sent successfully during a request, for every history of phases and responses.", "quantifier": "all action sets with terminal denies, all hosts, all histories", "why_tests_cant": "whole-history property", "anchors": ["crates/kuadrant-filter/src/kuadrant/pipeline/tasks/send_reply.rs", "crates/kuadrant-filter/src/kuadrant/pipeline/executor.rs:process_tasks", "crates/kuadrant-filter/src/kuadrant/pipeline/tasks/fail.rs"]}
{"id": "C18", "title": "No lost wake-up", "statement": "After an evaluation pass, an action left in the queue either asked to wait for data in that very pass or has a dependency that is itself still queued, in flight, or failed.", "quantifier": "all dependency-ordered queues and all outcomes", "why_tests_cant": "all queues and outcome combinations", "anchors": ["crates/kuadrant-filter/src/kuadrant/pipeline/executor.rs:process_tasks", "crates/kuadrant-filter/src/kuadrant/pipeline/executor.rs:eval"]}
{"id": "C19", "title": "Teardown runs exactly once, last", "statement": "Teardown actions (trace export) are executed at most once per request, and not before processing terminated or no action and no call is left; a pipeline that reports Completed has executed them.", "quantifier": "all histories", "why_tests_cant": "whole-history property", "anchors": ["crates/kuadrant-filter/src/kuadrant/pipeline/executor.rs:execute_teardown", "crates/kuadrant-filter/src/kuadrant/pipeline/executor.rs:eval", "crates/kuadrant-filter/src/kuadrant/pipeline/tasks/export_traces.rs"]}
{"id": "C20", "title": "An action makes at most one call", "statement": "Each configured gRPC action issues at most one successful external call per request, however often it is re-evaluated.", "quantifier": "all action sets with distinct ids, all histories", "why_tests_cant": "whole-history property", "anchors": ["crates/kuadrant-filter/src/kuadrant/pipeline/tasks/dynamic.rs:apply", "crates/kuadrant-filter/src/kuadrant/pipeline/executor.rs:process_tasks"]}
{"id": "C21", "title": "A failed earlier action does not silently disable later guards", "statement": "If an action fails and processing is not terminated, the actions that wait for it are still run eventually (or the request is rejected); the request is never let through with a configured guard skipped.", "quantifier": "all action sets and failures", "why_tests_cant": "needs a multi-action history", "anchors": ["crates/kuadrant-filter/src/kuadrant/pipeline/executor.rs:process_tasks", "crates/kuadrant-filter/src/kuadrant/pipeline/blueprint.rs:compute_dependencies"]}
{"id": "C22", "title": "Setting a header replaces exactly that header", "statement": "After setting name to value, reading name yields exactly that value, all headers of other names keep their values and order, and setting twice equals setting once with the last value.", "quantifier": "all header lists, names and values", "why_tests_cant": "all lists", "anchors": ["crates/kuadrant-filter/src/data/headers.rs:set", "crates/kuadrant-filter/src/data/headers.rs:get_all", "crates/kuadrant-filter/src/data/headers.rs:get"]}
{"id": "C23", "title": "Header actions preserve unrelated headers", "statement": "When a headers action succeeds, the header map given to the host contains every previously present header whose name was not configured, unchanged and in order, followed by the configured headers with their last configured value.", "quantifier": "all existing headers and configured lists", "why_tests_cant": "all lists", "anchors": ["crates/kuadrant-filter/src/kuadrant/pipeline/tasks/headers.rs:apply", "crates/kuadrant-filter/src/data/headers.rs:set"]}
{"id": "C24", "title": "Attributes are read-your-writes", "statement": "After a header map or attribute was successfully written, every later read of that attribute in the same request yields the written value.", "quantifier": "all contexts and paths", "why_tests_cant": "all later histories", "anchors": ["crates/kuadrant-filter/src/kuadrant/context.rs:store_attribute_bytes", "crates/kuadrant-filter/src/kuadrant/context.rs:store_attribute_headers", "crates/kuadrant-filter/src/kuadrant/cache.rs:insert"]}
{"id": "C25", "title": "Attribute reads are stable within a request", "statement": "Once an attribute has been read as available, every later read in the request returns the same value unless the filter itself wrote it, whatever the host would answer later.", "quantifier": "all sequences of reads, evaluations and writes", "why_tests_cant": "whole-history property", "anchors": ["crates/kuadrant-filter/src/kuadrant/cache.rs:get_or_insert_with", "crates/kuadrant-filter/src/kuadrant/cache.rs:populate", "crates/kuadrant-filter/src/kuadrant/context.rs:get_attribute_ref"]}
{"id": "C26", "title": "Unavailable or failed reads are retried", "statement": "A read that found the attribute not available yet, or failed, leaves no trace: a later read asks the host again and returns the host's answer at that time.", "quantifier": "all contexts and host answers", "why_tests_cant": "all histories", "anchors": ["crates/kuadrant-filter/src/kuadrant/cache.rs:get_or_insert_with", "crates/kuadrant-filter/src/kuadrant/cache.rs:populate"]}
{"id": "C27", "title": "Attribute paths survive printing and parsing", "statement": "Printing a path and parsing the text gives back the same list of segments.", "quantifier": "all non-empty segment lists", "why_tests_cant": "all strings", "anchors": ["crates/kuadrant-filter/src/data/attribute.rs:Path"]}
{"id": "C28", "title": "Distinct attributes never share a cache entry", "statement": "Two different attribute paths are never answered from the same cached value.", "quantifier": "all pairs of distinct segment lists", "why_tests_cant": "all pairs of strings", "anchors": ["crates/kuadrant-filter/src/data/attribute.rs:Path::fmt", "crates/kuadrant-filter/src/kuadrant/cache.rs:get"]}
{"id": "C29", "title": "source.remote_address is the peer IP without port", "statement": "For a source address 'ip:port' the attribute is exactly the ip, for IPv4 and IPv6.", "quantifier": "all addresses", "why_tests_cant": "all strings", "anchors": ["crates/kuadrant-filter/src/kuadrant/context.rs:remote_address", "README.md"]}
{"id": "C30", "title": "One request id per request", "statement": "The request id used in service calls, the dev-mode header and the tracker header is the same throughout a request, and is the client's first x-request-id header whenever the request carries one.", "quantifier": "all contexts and histories", "why_tests_cant": "whole-history property", "anchors": ["crates/kuadrant-filter/src/kuadrant/context.rs:Tracker", "crates/kuadrant-filter/src/kuadrant/context.rs:request_id", "crates/kuadrant-filter/src/kuadrant/context.rs:dispatch_grpc_call"]}
{"id": "C31", "title": "A call's reply is visible exactly to its own reply actions", "statement": "The variable bound to the reply of an action is visible to that action and to the actions nested in its onReply, and to no other action.", "quantifier": "all action trees (numeric ids of any depth)", "why_tests_cant": "unbounded trees; textual prefix pitfalls such as 1 vs 10", "anchors": ["crates/kuadrant-filter/src/kuadrant/context.rs:is_ancestor", "crates/kuadrant-filter/src/kuadrant/context.rs:CelScope", "crates/kuadrant-filter/src/kuadrant/pipeline/blueprint.rs:compile_typed"]}
{"id": "C32", "title": "Reading a value not yet stored waits instead of reading null", "statement": "An expression that refers to a path some not yet finished store action will write evaluates to pending; after the store it sees exactly the stored value.", "quantifier": "all contexts, paths and expressions", "why_tests_cant": "all interleavings of store and read", "anchors": ["crates/kuadrant-filter/src/data/cel.rs:map_to_value", "crates/kuadrant-filter/src/kuadrant/context.rs:ValueStore", "crates/kuadrant-filter/src/kuadrant/context.rs:PathReservation"]}
{"id": "C33", "title": "Reservations are released exactly when the last holder goes away", "statement": "A stored-value path is reserved iff at least one live store action targets it, for every sequence of creations and drops.", "quantifier": "all sequences of reserve/drop", "why_tests_cant": "all histories", "anchors": ["crates/kuadrant-filter/src/kuadrant/context.rs:PathReservation", "crates/kuadrant-filter/src/kuadrant/context.rs:ValueStore"]}
{"id": "C34", "title": "A deny reply says what was configured", "statement": "The reply sent by a deny action has the status, headers and body of the evaluated DenyResponse (500 if no status), plus the tracker header when enabled, and each attempt is counted as denied.", "quantifier": "all DenyResponse values and contexts", "why_tests_cant": "all values", "anchors": ["crates/kuadrant-filter/src/kuadrant/pipeline/tasks/send_reply.rs:apply"]}
{"id": "C35", "title": "Exact host beats wildcard, longer wildcard beats shorter", "statement": "The action sets considered for a request are those configured for the exact host if any, else those of the longest configured wildcard host matching it, else none.", "quantifier": "all index contents and request hosts", "why_tests_cant": "all strings", "anchors": ["crates/kuadrant-filter/src/kuadrant/pipeline/factory.rs:select_blueprint", "crates/kuadrant-filter/src/kuadrant/pipeline/factory.rs:reverse_subdomain"]}
{"id": "C36", "title": "Host matching ignores case and port", "statement": "Two requests whose host differs only in ASCII letter case or in a ':port' suffix select the same action set; configured host names are case-insensitive.", "quantifier": "all hosts and configurations", "why_tests_cant": "all strings", "anchors": ["crates/kuadrant-filter/src/kuadrant/pipeline/factory.rs:get_hostname", "crates/kuadrant-filter/src/kuadrant/pipeline/factory.rs:try_from"]}
{"id": "C37", "title": "First action set whose conditions hold, in configuration order", "statement": "Among the action sets considered for a host the first one, in configuration order, all of whose route predicates are true is used; with none, the dev-mode fallback if any.", "quantifier": "all candidate lists and predicate results", "why_tests_cant": "unbounded lists", "anchors": ["crates/kuadrant-filter/src/kuadrant/pipeline/factory.rs:select_blueprint", "crates/kuadrant-filter/src/data/cel.rs:PredicateVec"]}
{"id": "C38", "title": "A route predicate that cannot be decided fails closed", "statement": "If evaluating the route predicates up to the first match errors or is pending, the request gets a 500 reply, the error metric is incremented and no pipeline is created.", "quantifier": "all configurations and hosts", "why_tests_cant": "all positions of the failing predicate", "anchors": ["crates/kuadrant-filter/src/kuadrant/pipeline/factory.rs:route_predicates_match", "crates/wasm-shim/src/filter/kuadrant_filter.rs:on_http_request_headers"]}
{"id": "C39", "title": "A wildcard host only covers whole labels", "statement": "'*.example.com' matches every host with at least one label in front of example.com and not example.com itself or notexample.com; a wildcard never matches in the middle of a label.", "quantifier": "all hosts and wildcard patterns", "why_tests_cant": "all strings", "anchors": ["crates/kuadrant-filter/src/kuadrant/pipeline/factory.rs:reverse_subdomain"]}
{"id": "C40", "title": "Hosts that are not configured are not affected", "statement": "If no configured host matches, the request continues, only the misses metric changes and no later phase has any effect.", "quantifier": "all configurations, hosts and later events", "why_tests_cant": "all histories", "anchors": ["crates/kuadrant-filter/src/kuadrant/pipeline/factory.rs:build", "crates/wasm-shim/src/filter/kuadrant_filter.rs"]}
{"id": "C41", "title": "SSE parsing does not depend on chunking", "statement": "Feeding an event stream in any split into chunks yields the same events as feeding it at once.", "quantifier": "all texts and all splits into valid chunks", "why_tests_cant": "all splits", "anchors": ["crates/kuadrant-filter/src/kuadrant/pipeline/tasks/store/sse_body_parser.rs:parse", "crates/kuadrant-filter/src/kuadrant/pipeline/tasks/store/sse_body_parser/sse_line_parser.rs:line"]}
{"id": "C42", "title": "Serialised events are parsed back", "statement": "Parsing the serialisation of any list of events (non-empty data) returns exactly these events, with any line ending.", "quantifier": "all event lists", "why_tests_cant": "all contents", "anchors": ["crates/kuadrant-filter/src/kuadrant/pipeline/tasks/store/sse_body_parser.rs:EventBuilder", "crates/kuadrant-filter/src/kuadrant/pipeline/tasks/store/sse_body_parser/sse_line_parser.rs:line"]}
{"id": "C43", "title": "Multi-line data is joined with newlines", "statement": "The data of an event is its data lines joined by a newline, as the SSE specification requires.", "quantifier": "all lists of data lines", "why_tests_cant": "all contents, incl. empty lines", "anchors": ["crates/kuadrant-filter/src/kuadrant/pipeline/tasks/store/sse_body_parser.rs:add", "crates/kuadrant-filter/src/kuadrant/pipeline/tasks/store/sse_body_parser.rs:dispatch"]}
{"id": "C44", "title": "SSE parsing always terminates and keeps only an unfinished line", "statement": "Parsing never loops or errors on valid UTF-8, and what it keeps buffered contains no complete line.", "quantifier": "all texts", "why_tests_cant": "all inputs", "anchors": ["crates/kuadrant-filter/src/kuadrant/pipeline/tasks/store/sse_body_parser.rs:parse_one_event", "crates/kuadrant-filter/src/kuadrant/pipeline/tasks/store/sse_body_parser/sse_line_parser.rs:line"]}
{"id": "C45", "title": "Splitting a stream inside a character is harmless", "statement": "An event stream cut inside a multi-byte UTF-8 character is parsed like the uncut stream.", "quantifier": "all streams and byte positions", "why_tests_cant": "all byte splits", "anchors": ["crates/kuadrant-filter/src/kuadrant/pipeline/tasks/store/sse_body_parser.rs:parse"]}
{"id": "C46", "title": "Usage is taken from the last event before the terminator", "statement": "For a stream of at least two events, token usage fields are taken from the penultimate event.", "quantifier": "all event lists and chunkings", "why_tests_cant": "all lists", "anchors": ["crates/kuadrant-filter/src/kuadrant/pipeline/tasks/token_usage.rs:SseStrategy", "crates/kuadrant-filter/src/kuadrant/pipeline/tasks/store/sse_body_parser.rs:SseBodyParser"]}
{"id": "C47", "title": "Every body byte is parsed exactly once", "statement": "When the host presents a growing buffer, the JSON body parser receives every byte of the body exactly once and in order, however often the action is re-evaluated.", "quantifier": "all sequences of growing buffer sizes and re-evaluations", "why_tests_cant": "all schedules", "anchors": ["crates/kuadrant-filter/src/kuadrant/pipeline/tasks/store.rs:apply", "crates/kuadrant-filter/src/kuadrant/pipeline/tasks/store/json_body_parser.rs:feed"]}
{"id": "C48", "title": "Event-stream bodies are not parsed twice", "statement": "The SSE body parser and the token usage strategies also receive each byte once when evaluated more than once over the same buffer.", "quantifier": "all schedules of phases and gRPC responses", "why_tests_cant": "needs re-evaluation by an unrelated response", "anchors": ["crates/kuadrant-filter/src/kuadrant/pipeline/tasks/store/sse_body_parser.rs:bytes_consumed", "crates/kuadrant-filter/src/kuadrant/pipeline/tasks/token_usage.rs:apply"]}
{"id": "C49", "title": "Body scalars keep their JSON type", "statement": "A JSON string, number, boolean or null extracted from a body is seen by expressions with its JSON type and value.", "quantifier": "all JSON scalars", "why_tests_cant": "all strings that look like numbers/booleans", "anchors": ["crates/kuadrant-filter/src/kuadrant/pipeline/tasks/store/body_parser.rs:parse_json_scalar", "crates/kuadrant-filter/src/kuadrant/pipeline/tasks/store/json_body_parser.rs"]}
{"id": "C50", "title": "split and join are inverse", "statement": "s.split(d).join(d) == s for every string and non-empty separator, and splitting a join of parts that do not contain the separator returns the parts.", "quantifier": "all strings and separators", "why_tests_cant": "all strings", "anchors": ["crates/kuadrant-filter/src/data/cel/strings.rs:split", "crates/kuadrant-filter/src/data/cel/strings.rs:join"]}
{"id": "C51", "title": "substring, charAt and indexOf agree", "statement": "substring(i,j) is the characters i..j; charAt(i) is substring(i,i+1); substring(0,i)+substring(i) is the string; an index returned by indexOf is the first place where the pattern occurs.", "quantifier": "all strings and indexes", "why_tests_cant": "all Unicode strings", "anchors": ["crates/kuadrant-filter/src/data/cel/strings.rs:substring", "crates/kuadrant-filter/src/data/cel/strings.rs:char_at", "crates/kuadrant-filter/src/data/cel/strings.rs:index_of"]}
{"id": "C52", "title": "indexOf counts characters", "statement": "indexOf/lastIndexOf return positions in the same unit that substring and charAt take, never panic, and lastIndexOf with an offset returns a position in the whole string.", "quantifier": "all strings and offsets", "why_tests_cant": "all Unicode strings", "anchors": ["crates/kuadrant-filter/src/data/cel/strings.rs:index_of", "crates/kuadrant-filter/src/data/cel/strings.rs:last_index_of"]}
{"id": "C53", "title": "replace, trim and case mapping are lawful", "statement": "replace leaves strings without the pattern unchanged and replaces every non-overlapping occurrence; lowerAscii/upperAscii are idempotent and touch only ASCII letters; trim is idempotent and removes only surrounding white space.", "quantifier": "all strings", "why_tests_cant": "all strings", "anchors": ["crates/kuadrant-filter/src/data/cel/strings.rs"]}
{"id": "C54", "title": "Configuration text cannot break out of a generated CEL string", "statement": "Escaping any text and placing it between double quotes yields one CEL string literal whose value is the original text.", "quantifier": "all texts", "why_tests_cant": "all strings (injection)", "anchors": ["crates/kuadrant-filter/src/configuration/legacy_translation.rs:escape_cel_string"]}
{"id": "C55", "title": "Legacy predicates are combined as documented", "statement": "The predicate generated for a legacy action is true iff all its own predicates are true and, for rate limiting, at least one conditional data block with predicates holds or some block is unconditional.", "quantifier": "all lists of predicates and blocks and all truth assignments", "why_tests_cant": "all lists", "anchors": ["crates/kuadrant-filter/src/configuration/legacy_translation.rs:join_predicates", "crates/kuadrant-filter/src/configuration/legacy_translation.rs: build_descriptor_predicate", "crates/kuadrant-filter/src/configuration/legacy_translation.rs: build_ratelimit_predicate"]}
{"id": "C56", "title": "Every attribute an expression reads is fetched before evaluation", "statement": "For every CEL expression, each host attribute path read by evaluating the expression is among the attributes collected for it, so that evaluation never sees null for an attribute the host can provide.", "quantifier": "all CEL syntax trees", "why_tests_cant": "all expressions", "anchors": ["crates/kuadrant-filter/src/data/cel.rs:properties", "crates/kuadrant-filter/src/data/cel.rs:new_expression"]}
{"id": "C57", "title": "Attribute collection invents no attributes", "statement": "Every collected attribute path is a path the expression actually mentions.", "quantifier": "all CEL syntax trees", "why_tests_cant": "all expressions", "anchors": ["crates/kuadrant-filter/src/data/cel.rs:properties"]}
{"id": "C58", "title": "Collected attributes are all bound", "statement": "The data handed to the CEL evaluator binds every collected attribute at its own path, with its own value, whatever other attributes are collected (prefixes included).", "quantifier": "all attribute lists", "why_tests_cant": "all sets of paths incl. prefixes of one another", "anchors": ["crates/kuadrant-filter/src/data/cel.rs:AttributeMap", "crates/kuadrant-filter/src/data/cel.rs:map_to_value"]}
{"id": "C59", "title": "Waiting expressions are pending, not wrong", "statement": "If some attribute, stored value or body field an expression needs is not available yet and none fails, evaluation is pending; if everything is available it is not pending.", "quantifier": "all expressions and contexts", "why_tests_cant": "all combinations", "anchors": ["crates/kuadrant-filter/src/data/cel.rs:eval", "crates/kuadrant-filter/src/data/cel.rs:map_to_value"]}
{"id": "C60", "title": "Descriptors: embedded ones are never replaced", "statement": "No descriptor response changes the descriptor of a built-in service, and a resolved service keeps a descriptor forever.", "quantifier": "all histories of registrations, fetches and responses", "why_tests_cant": "whole-history property", "anchors": ["crates/kuadrant-filter/src/filter/descriptor_manager.rs:insert_pool_from_bytes", "crates/kuadrant-filter/src/filter/descriptor_manager.rs:handle_response"]}
{"id": "C61", "title": "Descriptors: each missing one has at most one fetch in flight", "statement": "A service waiting for a descriptor is requested again only after its previous fetch was answered, and after any answer it is either resolved or will be requested again; never stuck.", "quantifier": "all histories", "why_tests_cant": "all orders of ticks and responses", "anchors": ["crates/kuadrant-filter/src/filter/descriptor_manager.rs:fetch_missing", "crates/kuadrant-filter/src/filter/descriptor_manager.rs:reset_pending", "crates/wasm-shim/src/filter/root_context.rs:on_grpc_call_response"]}
{"id": "C62", "title": "Descriptors: only a valid one resolves a service", "statement": "A service becomes resolved only through a successful response to an outstanding fetch that contains a valid descriptor for it.", "quantifier": "all histories", "why_tests_cant": "adversarial control planes", "anchors": ["crates/kuadrant-filter/src/filter/descriptor_manager.rs:handle_response"]}
{"id": "C63", "title": "A rejected configuration changes nothing for traffic", "statement": "If a new configuration does not compile, requests continue to be served with the previous one; requests already started keep the configuration they started with.", "quantifier": "all configuration histories", "why_tests_cant": "all interleavings of configuration and requests", "anchors": ["crates/wasm-shim/src/filter/root_context.rs:process_config", "crates/wasm-shim/src/filter/root_context.rs:create_http_context"]}
{"id": "C64", "title": "The span buffer is bounded and keeps the newest spans", "statement": "After any sequence of finished spans at most the capacity is kept, namely the most recent ones in order; taking them empties the buffer so no span is exported twice.", "quantifier": "all histories of span ends and exports, capacity at least 1", "why_tests_cant": "whole-history property", "anchors": ["crates/kuadrant-filter/src/tracing/processor.rs"]}
{"id": "C65", "title": "Values survive conversion to protobuf and back", "statement": "Converting a CEL value to a protobuf field and back yields the same value for every scalar kind in range and for lists, maps and nested messages of them.", "quantifier": "all message schemas and values", "why_tests_cant": "all nesting depths", "anchors": ["crates/kuadrant-filter/src/services/dynamic/converters.rs:cel_val_to_proto_value", "crates/kuadrant-filter/src/services/dynamic/converters.rs:proto_value_to_cel_val"]}
{"id": "C66", "title": "Out-of-range numbers are rejected", "statement": "A CEL integer that does not fit the protobuf field is an error, never silently a different number.", "quantifier": "all integers and numeric field kinds", "why_tests_cant": "all 64-bit values", "anchors": ["crates/kuadrant-filter/src/services/dynamic/converters.rs:single"]}
{"id": "C67", "title": "All message types reachable from a method are declared", "statement": "The set of struct types registered for a message contains exactly the message and all message types reachable through its fields, each once, also for recursive schemas.", "quantifier": "all finite schemas, cyclic ones included", "why_tests_cant": "all graphs", "anchors": ["crates/kuadrant-filter/src/services/dynamic/converters.rs:collect_struct_defs"]}
{"id": "C68", "title": "Header lists are converted faithfully", "statement": "A CEL list of [name, value] pairs becomes exactly these headers in order; malformed elements are skipped without affecting others.", "quantifier": "all CEL values", "why_tests_cant": "all lists", "anchors": ["crates/kuadrant-filter/src/services/dynamic/converters.rs:cel_value_to_header_pairs"]}
{"id": "C69", "title": "Every request is counted once", "statement": "Each request increments exactly one of hits, misses and (build) errors when its headers arrive.", "quantifier": "all configurations and contexts", "why_tests_cant": "all outcomes", "anchors": ["crates/wasm-shim/src/filter/kuadrant_filter.rs:on_http_request_headers"]}
{"id": "C70", "title": "A request without a pipeline is never paused or resumed", "statement": "When no pipeline exists (no match, build failure, or work completed) every callback continues immediately, and gRPC responses have no effect.", "quantifier": "all later events", "why_tests_cant": "all histories", "anchors": ["crates/wasm-shim/src/filter/kuadrant_filter.rs"]}
{"id": "C71", "title": "A held response is always released", "statement": "If the response is paused at end of stream, some call is in flight, so that a later event resumes it; it is never paused forever.", "quantifier": "all executions", "why_tests_cant": "liveness over all schedules", "anchors": ["crates/wasm-shim/src/filter/kuadrant_filter.rs:on_http_response_body", "crates/wasm-shim/src/filter/kuadrant_filter.rs:on_grpc_call_response"]}
{"id": "C72", "title": "Pausing ends with a resume", "statement": "When the last guard call in flight is answered and processing was not terminated, the stream of the current phase is resumed in that same callback.", "quantifier": "all executions", "why_tests_cant": "all schedules", "anchors": ["crates/wasm-shim/src/filter/kuadrant_filter.rs:on_grpc_call_response", "crates/wasm-shim/src/filter/kuadrant_filter.rs:should_resume"]}
{"id": "C73", "title": "Binary attributes are decoded exactly", "statement": "Integer attributes decode to the number whose little-endian two's complement encoding the host supplied and anything not exactly 8 bytes long is an error; booleans likewise with 1 byte.", "quantifier": "all byte strings", "why_tests_cant": "all 64-bit values", "anchors": ["crates/kuadrant-filter/src/data/attribute.rs:AttributeValue"]}
{"id": "C74", "title": "requestData keys are split into domain and field", "statement": "A key is split at a dot so that domain, dot and field concatenate to the key, or the domain is empty and the field is the whole key.", "quantifier": "all keys", "why_tests_cant": "all strings", "anchors": ["crates/kuadrant-filter/src/kuadrant/pipeline/factory.rs:domain_and_field_name"]}
{"id": "C75", "title": "terminal is honoured by every action kind", "statement": "When an action marked terminal takes effect (its predicate holds and it succeeds), no later action of the set is evaluated.", "quantifier": "all action kinds and sets", "why_tests_cant": "all action sets", "anchors": ["crates/kuadrant-filter/src/kuadrant/pipeline/blueprint.rs:to_core_task", "README.md", "crates/kuadrant-filter/src/kuadrant/pipeline/tasks/store.rs", "crates/kuadrant-filter/src/kuadrant/pipeline/tasks/headers.rs", "crates/kuadrant-filter/src/kuadrant/pipeline/tasks/fail.rs", "crates/kuadrant-filter/src/kuadrant/pipeline/tasks/send_reply.rs"]}
{"id": "C76", "title": "Legacy actions run one after another", "statement": "In an action set of legacy actions each action's call is made only after the previous action completed.", "quantifier": "all legacy action sets and executions", "why_tests_cant": "all interleavings", "anchors": ["crates/kuadrant-filter/src/kuadrant/pipeline/blueprint.rs:compute_dependencies", "crates/kuadrant-filter/src/kuadrant/pipeline/executor.rs:process_tasks"]}
{"id": "C77", "title": "Mixed legacy and typed sets keep configuration order around sequential and legacy actions", "statement": "Also when legacy and typed actions are mixed, a legacy action waits for all earlier actions.", "quantifier": "all mixed action lists", "why_tests_cant": "all lists", "anchors": ["crates/kuadrant-filter/src/kuadrant/pipeline/blueprint.rs:compute_dependencies"]}
{"id": "C78", "title": "The dev-mode header is exactly the request id", "statement": "With observability configured, the response gets one header with the configured name and the request id as its value; whatever the client sends as x-request-id it can neither add other headers to the response nor stop the filter.", "quantifier": "all configurations, all client headers, all histories", "why_tests_cant": "the header value is pasted into a CEL program: all strings", "anchors": ["crates/kuadrant-filter/src/kuadrant/pipeline/blueprint.rs:to_core_task"]}
{"id": "C79", "title": "Only terminal actions and failed guards end processing", "statement": "Processing ends early only through a terminal action whose condition holds, or through a failed call of a service whose failure mode is deny.", "quantifier": "all action sets, hosts, histories", "why_tests_cant": "whole-history property over all action sets", "anchors": ["crates/kuadrant-filter/src/kuadrant/pipeline/executor.rs:process_tasks", "crates/kuadrant-filter/src/kuadrant/pipeline/tasks/failure_mode.rs", "crates/kuadrant-filter/src/kuadrant/pipeline/tasks/send_reply.rs"]}
{"id": "C80", "title": "Bodies may come piece by piece", "statement": "When the host shows each piece of a body once and only that piece (as it does when the body is not held back), body fields and token usage are those of the whole body.", "quantifier": "all bodies, all ways to cut them into pieces, all actions that read bodies", "why_tests_cant": "the number and the sizes of the pieces are unbounded", "anchors": ["crates/kuadrant-filter/src/kuadrant/pipeline/tasks/store.rs:StoreTask::apply", "crates/kuadrant-filter/src/kuadrant/pipeline/tasks/token_usage.rs:TokenUsageTask::apply", "crates/kuadrant-filter/src/kuadrant/pipeline/tasks/store/json_body_parser.rs:bytes_consumed"]}
{"id": "C81", "title": "request.grpc names the called service and method", "statement": "An expression that mentions request.grpc sees request.grpc.service and request.grpc.method exactly when the request is a gRPC call whose path has the form /service/method, with exactly those two names, and sees neither otherwise.", "quantifier": "all expressions, all request paths and content types, all hosts", "why_tests_cant": "all paths and expressions", "anchors": ["crates/kuadrant-filter/src/data/cel.rs:resolve_grpc", "crates/kuadrant-filter/src/data/cel.rs:eval", "crates/kuadrant-filter/src/data/cel.rs:new_expression"]}
{"id": "C82", "title": "Only what is configured is requested from the descriptor service", "statement": "Only services of the configuration in force are requested from the descriptor service, and only services that were requested get a descriptor from it.", "quantifier": "all histories of configurations, timer ticks and answers", "why_tests_cant": "whole-history property with adversarial answers", "anchors": ["crates/kuadrant-filter/src/filter/descriptor_manager.rs:fetch_missing", "crates/kuadrant-filter/src/filter/descriptor_manager.rs:handle_response", "crates/kuadrant-filter/src/services/dynamic.rs:DynamicService::new", "crates/wasm-shim/src/filter/root_context.rs:process_config"]}
{"id": "C83", "title": "No part of a message expression is silently lost", "statement": "When a message expression is converted for a call, every field it sets is either carried by the request or the conversion fails; in particular the expression must be of the message type the method takes.", "quantifier": "all schemas, message types and message expressions", "why_tests_cant": "unbounded nesting of messages, lists and maps, over every schema", "anchors": ["crates/kuadrant-filter/src/services/dynamic/converters.rs:struct_to_dynamic_message", "crates/kuadrant-filter/src/services/dynamic/converters.rs:cel_to_dynamic_message"]}
{"id": "C84", "title": "Converted requests have the declared field types", "statement": "A request that is built has, in every field at every depth, a value of the type the schema declares, so that encoding it cannot go wrong.", "quantifier": "all schemas, message types and message expressions", "why_tests_cant": "unbounded nesting of messages, lists and maps, over every schema", "anchors": ["crates/kuadrant-filter/src/services/dynamic/converters.rs:cel_val_to_proto_value", "crates/kuadrant-filter/src/services/dynamic/converters.rs:cel_val_to_single_proto_value", "crates/kuadrant-filter/src/services/dynamic/converters.rs:cel_map_key_to_proto"]}
{"id": "C85", "title": "A reply that conforms to its schema can be read", "statement": "Every reply whose fields conform to the declared message type is made available to expressions.", "quantifier": "all schemas, message types and conforming messages of any depth", "why_tests_cant": "unbounded nesting of messages, lists and maps, over every schema", "anchors": ["crates/kuadrant-filter/src/services/dynamic/converters.rs:dynamic_message_to_cel", "crates/kuadrant-filter/src/services/dynamic/converters.rs:proto_value_to_cel_val"]}
{"id": "C86", "title": "Expressions see fields with their registered type", "statement": "The value an expression sees for a reply field has the type registered with the CEL environment for that field, unset fields without presence are seen as their default, and only unset fields with presence are absent.", "quantifier": "all schemas, message types and conforming messages", "why_tests_cant": "unbounded nesting of messages, lists and maps, over every schema", "anchors": ["crates/kuadrant-filter/src/services/dynamic/converters.rs:dynamic_message_to_cel", "crates/kuadrant-filter/src/services/dynamic/converters.rs:proto_value_to_cel_val", "crates/kuadrant-filter/src/services/dynamic/converters.rs:collect_struct_defs"]}
{"id": "C87", "title": "What was read from a reply can be sent on", "statement": "A value read from a reply field can be put in a request field of the same type, and the service then receives the message the first service sent.", "quantifier": "all schemas, fields and conforming messages of any depth", "why_tests_cant": "unbounded nesting of messages, lists and maps, over every schema", "anchors": ["crates/kuadrant-filter/src/services/dynamic/converters.rs:proto_value_to_cel_val", "crates/kuadrant-filter/src/services/dynamic/converters.rs:cel_val_to_proto_value", "crates/kuadrant-filter/src/services/dynamic/converters.rs:cel_val_to_single_proto_value"]}
{"id": "C88", "title": "A rate-limit action sends the documented request", "statement": "For every legacy ratelimit, ratelimit-check and ratelimit-report action, the generated message builder is one CEL expression that builds a RateLimitRequest whose domain is the item ratelimit.domain or else the scope, whose hits_addend is the item ratelimit.hits_addend or else 1, and whose descriptors are the other items of the blocks whose predicates hold, followed by the request data under their names; scope, keys and static values appear as text whatever characters they contain.", "quantifier": "all scopes, all lists of conditional data and all request data, with any texts as keys and values and any CEL expressions as predicates and expression items", "why_tests_cant": "The builder pastes user text into CEL source; tests compare a few generated strings and cannot show that every key, value, conditional or operator inside the pasted expressions leaves the shape of the request intact.", "anchors": ["crates/kuadrant-filter/src/configuration/legacy_translation.rs: build_ratelimit_message_builder", "crates/kuadrant-filter/src/configuration/legacy_translation.rs: build_ratelimit_descriptors_cel", "crates/kuadrant-filter/src/configuration/legacy_translation.rs: build_ratelimit_entry_list_cel", "crates/kuadrant-filter/src/configuration/legacy_translation.rs:find_ratelimit_known_attr_cel", "crates/kuadrant-filter/src/configuration/legacy_translation.rs: translate_legacy_ratelimit_to_typed", "crates/kuadrant-filter/src/configuration/legacy_translation.rs: translate_legacy_report_to_typed"]}
{"id": "C89", "title": "An auth action sends the documented check request", "statement": "For every legacy auth action, the generated message builder is one CEL expression that builds a CheckRequest with the request's time, host, method, scheme, path, protocol and headers, both peers, the scope as context extension host, and metadata in which every request datum that does not read the response body occurs exactly once, under its domain and field: as text if it refers to the authorization result, evaluated otherwise.", "quantifier": "all scopes and all request data, with any texts as domains and fields and any CEL expressions as values", "why_tests_cant": "The data are grouped through a hash map and pasted into nested CEL literals; tests check a few inputs and cannot show that nothing is lost, duplicated or re-read as CEL for arbitrary domains, fields and expressions.", "anchors": ["crates/kuadrant-filter/src/configuration/legacy_translation.rs: build_auth_message_builder", "crates/kuadrant-filter/src/configuration/legacy_translation.rs: build_metadata_context_cel", "crates/kuadrant-filter/src/configuration/legacy_translation.rs: build_request_data_value_cel", "crates/kuadrant-filter/src/configuration/legacy_translation.rs: translate_legacy_auth_to_typed"]}
{"id": "C90", "title": "Sequential calls wait for the reply actions of the calls before them", "statement": "A call that is configured to follow another one is not sent while a call among the reply actions of that other one is still awaiting its response.", "quantifier": "all configurations, nestings of reply actions, hosts and event sequences", "why_tests_cant": "needs an interleaving in which a nested call is on its way when the sequential one becomes eligible; tests use flat pipelines", "anchors": ["crates/kuadrant-filter/src/kuadrant/pipeline/executor.rs:digest", "crates/kuadrant-filter/src/kuadrant/pipeline/blueprint.rs:compute_dependencies"]}
{"id": "C91", "title": "Exported values read back as what they were", "statement": "What a store action exports to the host is a google.protobuf.Struct (for maps) or Value (for anything else) whose content, for a reader of these messages, is the evaluated CEL value: the same text, booleans, nulls, numbers, lists and entries.", "quantifier": "all CEL values of any depth and size", "why_tests_cant": "tests compare the bytes of a few small values; integers beyond the precision of a double, byte strings, empty keys and nesting need an argument over all values", "anchors": ["crates/kuadrant-filter/src/services/dynamic/converters.rs:cel_value_to_bytes", "crates/kuadrant-filter/src/services/dynamic/converters.rs:cel_to_prost_value", "crates/kuadrant-filter/src/kuadrant/pipeline/tasks/store.rs:apply"]}
{"id": "C92", "title": "Only values that cannot be shown are refused", "statement": "Exporting fails exactly for values that have, at some depth, a part without counterpart in google.protobuf.Value: a timestamp, a duration, a message, or a map with a key that is not text.", "quantifier": "all CEL values of any depth and size", "why_tests_cant": "the failure must be found at any depth, and every other value must succeed", "anchors": ["crates/kuadrant-filter/src/services/dynamic/converters.rs:cel_value_to_bytes", "crates/kuadrant-filter/src/services/dynamic/converters.rs:cel_to_prost_value", "crates/kuadrant-filter/src/kuadrant/pipeline/tasks/store.rs:apply"]}
{"id": "C93", "title": "Exports are deterministic", "statement": "Two values are exported as the same bytes exactly when they have the same content; in particular the order of the entries of a map does not matter.", "quantifier": "all pairs of CEL values whose integers are at most 2^53 and whose byte strings are text", "why_tests_cant": "maps come from a hash map, whose order changes between runs; a test sees one order", "anchors": ["crates/kuadrant-filter/src/services/dynamic/converters.rs:cel_value_to_bytes", "crates/kuadrant-filter/src/services/dynamic/converters.rs:cel_to_prost_value", "crates/kuadrant-filter/src/kuadrant/pipeline/tasks/store.rs:apply"]}
{"id": "C94", "title": "Properties set on the host come from store actions", "statement": "Every property the filter sets on the host is the value of a configured store action with export whose condition holds; it is set under the action's path in the namespace kuadrant, in the export encoding.", "quantifier": "all configurations, hosts, expression semantics and event sequences; every property write in them", "why_tests_cant": "says that no write of any other kind exists in any execution", "anchors": ["crates/kuadrant-filter/src/kuadrant/pipeline/tasks/store.rs:apply", "crates/kuadrant-filter/src/kuadrant/context.rs:set_attribute", "crates/kuadrant-filter/src/data/attribute.rs:Path"]}
{"id": "C95", "title": "Header changes add up", "statement": "Every header write is that of a configured headers action whose condition holds (or the dev-mode header on the response). What is written are the headers as last written by the filter, or as once delivered by the host if it wrote none, with the action's pairs in the place of headers of the same name: no earlier change is lost and no other header is touched.", "quantifier": "all configurations, hosts, expression semantics and event sequences; every header write in them, in particular sequences of any number of headers actions", "why_tests_cant": "an invariant of the header cache over all interleavings of reads, writes, failed writes, exports and callbacks", "anchors": ["crates/kuadrant-filter/src/kuadrant/pipeline/tasks/headers.rs:apply", "crates/kuadrant-filter/src/kuadrant/context.rs:set_attribute_map", "crates/kuadrant-filter/src/kuadrant/cache.rs"]}
{"id": "C96", "title": "Completed actions did their job", "statement": "An action other than a call that completes has had its effect accepted by the host (headers written, property exported, reply sent), unless its condition was false or it had no header to set.", "quantifier": "all configurations, expression semantics and event sequences, and all hosts that do not answer 'not available' to property writes", "why_tests_cant": "ranges over all points at which an action may be retried and all answers of the host", "anchors": ["crates/kuadrant-filter/src/kuadrant/pipeline/tasks/headers.rs:apply", "crates/kuadrant-filter/src/kuadrant/pipeline/tasks/store.rs:apply", "crates/kuadrant-filter/src/kuadrant/pipeline/tasks/send_reply.rs:apply"]}
{"id": "C97", "title": "Calls say what was configured", "statement": "Every call to a service is made while a configured call action is evaluated whose condition holds at that moment. It goes to the endpoint, service and method of the service the action names, with its timeout, and carries the encoding of the value the action's message has at that moment.", "quantifier": "all configurations, hosts, expression semantics, encodings and event sequences; every call in the history", "why_tests_cant": "ranges over all configurations and all points of an execution at which a call may be made, including nested reply actions and retries", "anchors": ["crates/kuadrant-filter/src/kuadrant/pipeline/tasks/dynamic.rs:apply", "crates/kuadrant-filter/src/services/mod.rs:from_config", "crates/kuadrant-filter/src/services/dynamic.rs:dispatch_value"]}
{"id": "C98", "title": "Services get the value of the message expression", "statement": "On the deployed host, every call carries the wire encoding of a message of the input type of the method called, according to the descriptors known for that upstream and service. The action's message evaluates to a struct; if the struct fits the input type, the message encoded reads as the same value.", "quantifier": "all hosts, descriptor pools, schemas, values of any depth, configurations and event sequences", "why_tests_cant": "ranges over all schemas, nested values and executions", "anchors": ["crates/kuadrant-filter/src/services/dynamic.rs:dispatch_value", "crates/kuadrant-filter/src/services/dynamic.rs:method_descriptor", "crates/kuadrant-filter/src/services/dynamic/converters.rs:cel_to_dynamic_message", "crates/wasm-shim/src/wasm_host.rs:dispatch_grpc_call"]}
{"id": "C99", "title": "Answers of services are used", "statement": "If a service answers a call successfully with a message of the method's output type, reply actions see the content of that message under the call's variable, and they run next, in order.", "quantifier": "all hosts, descriptor pools, schemas, messages, configurations and event sequences; every open call", "why_tests_cant": "ranges over all message types and contents, including the empty message, and over all moments at which the answer may come", "anchors": ["crates/wasm-shim/src/wasm_host.rs:get_grpc_response", "crates/kuadrant-filter/src/services/dynamic.rs:get_response_cel_value", "crates/kuadrant-filter/src/services/dynamic.rs:parse_message", "crates/kuadrant-filter/src/kuadrant/pipeline/tasks/dynamic.rs:process_response"]}
{"id": "C100", "title": "Host attributes are seen with their documented type and value", "statement": "The value an expression sees of a host attribute is what the host supplied, read with the attribute's type: UTF-8 text, 8-byte little-endian integers and timestamps, one-byte booleans, raw bytes, header maps; an attribute without a known type is its JSON value (non-negative integers unsigned, negative ones signed, arrays and objects element by element) or else its text; an absent attribute is null; anything else is an error and never another value.", "quantifier": "all attributes, host answers and JSON documents", "why_tests_cant": "unboundedly many byte strings and documents", "anchors": ["crates/kuadrant-filter/src/data/cel.rs:Attribute::get", "crates/kuadrant-filter/src/data/cel.rs:json_value_to_cel", "crates/kuadrant-filter/src/data/cel.rs:new_well_known_attribute_map", "crates/kuadrant-filter/src/data/attribute.rs:AttributeValue"]}
{"id": "C101", "title": "Repeated headers are seen once, joined in order", "statement": "The header map an expression sees has every header name exactly once, with all values of that header in their original order separated by commas, and no other names.", "quantifier": "all header lists", "why_tests_cant": "all lists, with any interleaving of repeated names", "anchors": ["crates/kuadrant-filter/src/data/headers.rs:From<Headers> for HashMap"]}
{"id": "C102", "title": "Selections in expressions mean what was supplied for them", "statement": "An expression of an action that selects an attribute (request.host, source.address, a stored path) has the value the host gave for it, or a store action whose condition held had computed for it; one that selects a field of a call's variable has the value of that field in the reply of the innermost enclosing call of that name. An exported selection is exported with that value.", "quantifier": "all configurations, hosts, CEL interpreters that select fields, event sequences and moments of evaluation", "why_tests_cant": "ranges over every interleaving of cached and fresh host reads, store actions and replies at any nesting depth", "anchors": ["crates/kuadrant-filter/src/data/cel.rs:Expression::eval", "crates/kuadrant-filter/src/data/cel.rs:AttributeMap", "crates/kuadrant-filter/src/kuadrant/context.rs:get_attribute_ref", "crates/kuadrant-filter/src/kuadrant/context.rs:CelScope", "crates/kuadrant-filter/src/kuadrant/pipeline/tasks/store.rs:StoreTask"]}
{"id": "C103", "title": "Body fields seen by expressions are fields of the body", "statement": "An expression that asks for a field of the request or response body (requestBodyJSON, responseBodyJSON) is evaluated with the value that field has in the bytes the host gave for that body: for a JSON body the last value of the field in a document the parser had finished, made of consecutive pieces each read once; for an event stream the field in the data of the last event but one. A store action that exports such a field exports that value.", "quantifier": "all configurations, hosts, CEL interpreters that read the body variables, sequences of body chunks and other events, and moments of evaluation", "why_tests_cant": "ranges over every way of cutting a body into announced sizes, over every action that may have parsed it, and over all later expressions that see its fields", "anchors": ["crates/kuadrant-filter/src/data/cel.rs:request_body_json", "crates/kuadrant-filter/src/data/cel.rs:Expression::eval", "crates/kuadrant-filter/src/kuadrant/pipeline/tasks/store.rs:StoreTask", "crates/kuadrant-filter/src/kuadrant/pipeline/tasks/token_usage.rs:TokenUsageTask", "crates/kuadrant-filter/src/kuadrant/context.rs:BodyContext"]}
{"id": "C104", "title": "Actions that depend on a body wait for it", "statement": "A call, a denial, a header change or an export whose condition or content asks for a field of a body does not happen before the body has a value for that field; so not before the host has announced any of that body.", "quantifier": "all configurations, hosts, interpreters, event sequences, actions and asked fields at any depth of the expression", "why_tests_cant": "a claim that nothing happens early, over all interleavings of headers, body chunks and replies", "anchors": ["crates/kuadrant-filter/src/data/cel.rs:Expression::eval", "crates/kuadrant-filter/src/data/cel.rs:properties", "crates/kuadrant-filter/src/kuadrant/pipeline/tasks/dynamic.rs", "crates/kuadrant-filter/src/kuadrant/pipeline/tasks/store.rs", "crates/kuadrant-filter/src/kuadrant/pipeline/tasks/send_reply.rs", "crates/kuadrant-filter/src/kuadrant/pipeline/tasks/headers.rs"]}
{"id": "C105", "title": "The configuration file means what is written in it", "statement": "A configuration document is accepted exactly if every mandatory entry is present once and of the documented kind; the accepted configuration then has every service, action set, condition and action of the document, in order and with nested reply actions, with the documented defaults for the entries left out (guard unless said otherwise, parallel execution, 20 ms time limit, no export). Each request is served by a document read this way, or by none.", "quantifier": "all JSON documents, of any size and nesting of reply actions; all histories of configuration callbacks", "why_tests_cant": "an equivalence over all documents; tests check a handful of literals", "anchors": ["crates/kuadrant-filter/src/configuration.rs:PluginConfiguration", "crates/kuadrant-filter/src/configuration.rs:TypedAction", "crates/kuadrant-filter/src/configuration.rs:ActionConfig", "crates/kuadrant-filter/src/configuration.rs:Service", "crates/wasm-shim/src/filter/root_context.rs:on_configure"]}
{"id": "C106", "title": "Order of entries and unknown entries do not change a configuration", "statement": "Two documents that differ only in the order of the entries of their objects, at any depth, are read as the same settings; so are two documents that differ by an entry whose name has no meaning in an action or at the top. Settings that differ only in such an order, that of the hash maps the instance keeps them in included, make the same instance: every request is treated alike.", "quantifier": "all JSON documents without repeated names and all reorderings at any depth; all unknown names and values", "why_tests_cant": "a relation between all pairs of documents", "anchors": ["crates/kuadrant-filter/src/configuration.rs:PluginConfiguration", "crates/kuadrant-filter/src/configuration.rs:ActionConfig", "crates/kuadrant-filter/src/kuadrant/pipeline/factory.rs:53-140 try_from (request_data.sort_by)"]}
{"id": "C107", "title": "Unusable actions are rejected, not dropped or reinterpreted", "statement": "A configuration with a misspelt option or an incomplete action is rejected; an accepted one has exactly one action for each entry of the list, and each has its mandatory entries.", "quantifier": "all JSON documents", "why_tests_cant": "a claim about every malformed document", "anchors": ["crates/kuadrant-filter/src/configuration.rs:ActionConfig", "crates/kuadrant-filter/src/configuration.rs:TypedAction", "crates/kuadrant-filter/src/configuration.rs:Action"]}
{"id": "C108", "title": "The configured time limit of a service is the one used", "statement": "The time limit of a service is the written duration, 20 ms if none is written; a negative one is rejected and a positive one is not turned into no limit.", "quantifier": "all service entries and all durations", "why_tests_cant": "ranges over all durations; tests use a few round numbers of milliseconds", "anchors": ["crates/kuadrant-filter/src/configuration.rs:Timeout", "crates/kuadrant-filter/src/configuration.rs:Service"]}
{"id": "C109", "title": "A rejected request is never passed on", "statement": "Once an action has rejected a request (or, where all deny actions are terminal, once a reply was sent to the client) the request is not resumed towards the upstream, whatever responses arrive later.", "quantifier": "all configurations, hosts and callback sequences in which the response's body comes after its headers", "why_tests_cant": "the late responses of abandoned calls may arrive in any number and order", "anchors": ["crates/wasm-shim/src/filter/kuadrant_filter.rs:should_resume", "crates/wasm-shim/src/filter/kuadrant_filter.rs:on_grpc_call_response"]}
{"id": "C110", "title": "Guards decide before the request passes", "statement": "When the host is told that a request may go on, every guard of its action set has completed.", "quantifier": "all configurations, hosts and callback sequences", "why_tests_cant": "depends on the interleaving of the plan, of data that is not there yet and of responses", "anchors": ["crates/kuadrant-filter/src/kuadrant/pipeline/executor.rs:requires_pause", "crates/kuadrant-filter/src/kuadrant/pipeline/executor.rs:eval", "crates/wasm-shim/src/filter/kuadrant_filter.rs:on_http_request_headers"]}
{"id": "C111", "title": "Only what waits is resumed", "statement": "A request or response is resumed only after the host was told to pause it, and once per pause.", "quantifier": "all configurations, hosts and callback sequences", "why_tests_cant": "ranges over all interleavings of responses with the phases of a request", "anchors": ["crates/wasm-shim/src/filter/kuadrant_filter.rs:should_resume", "crates/wasm-shim/src/filter/kuadrant_filter.rs:on_grpc_call_response", "crates/kuadrant-filter/src/kuadrant/pipeline/tasks/export_traces.rs:ExportTracesTask"]}
{"id": "C112", "title": "Traces go to the configured tracing service, and only there", "statement": "Spans are sent only to the service of type tracing that observability.tracing.service names, to the Export method of the OpenTelemetry collector, under its timeout and unchanged; at most once per request; and a configured tracing service receives the spans pending when the pipeline of a request ends.", "quantifier": "all configurations, hosts and callback sequences", "why_tests_cant": "ranges over all configurations and over when the pipeline ends", "anchors": ["crates/kuadrant-filter/src/kuadrant/pipeline/tasks/export_traces.rs:ExportTracesTask", "crates/kuadrant-filter/src/kuadrant/pipeline/factory.rs:try_from", "crates/kuadrant-filter/src/services/tracing.rs:TracingService", "crates/kuadrant-filter/src/kuadrant/pipeline/blueprint.rs:Action"]}
{"id": "C113", "title": "Calls are made in the trace of the request they are for", "statement": "A call made for a request whose client sent a trace context carries a context of that trace, whatever other requests are on their way in the same instance and whatever the log level; if no span is made for the request, the context is passed on as it came, baggage included.", "quantifier": "all interleavings of requests, configurations and log levels in one instance, all header parsers and id generators", "why_tests_cant": "the current span is shared by all requests of a thread, so what a call carries depends on how the requests interleave", "anchors": ["crates/kuadrant-filter/src/kuadrant/context.rs:enter_request_span", "crates/kuadrant-filter/src/kuadrant/context.rs:get_tracing_headers", "crates/kuadrant-filter/src/kuadrant/pipeline/tasks/tracing_decorator.rs:TracingDecoratorTask", "crates/kuadrant-filter/src/tracing/mod.rs:init_observability"]}
{"id": "C114", "title": "Headers are changed only when they are there", "statement": "On the real host, a header map is only ever written after the same map was read with at least one header in it, and the first write of a map is what was read with the configured changes applied; so response headers are not changed before the response has arrived.", "quantifier": "all hosts, configurations, requests, interleavings of callbacks and service responses", "why_tests_cant": "whether the headers are there when an action runs depends on the order in which service responses and the upstream's response arrive", "anchors": ["crates/wasm-shim/src/wasm_host.rs:get_attribute_map", "crates/wasm-shim/src/wasm_host.rs:set_attribute_map", "crates/kuadrant-filter/src/kuadrant/pipeline/tasks/headers.rs:ModifyHeadersTask"]}
{"id": "C115", "title": "The reply to a call leads to the verdict of its reply actions", "statement": "When the response to a call comes, its reply actions are carried out at once and in order: actions that are not for this reply, or whose condition or denial cannot be evaluated, are passed over without a reply; store and header actions whose condition holds export and write what they are configured to; the first terminal deny action whose condition holds sends its denial and the first terminal fail action whose condition holds sends the reply to a failure, and no action is evaluated after it.", "quantifier": "all configurations, hosts, CEL interpreters, callback sequences up to the response, services, replies, and lists of reply actions of any length whose expressions are about the reply", "why_tests_cant": "the reply is a value the service chooses, the reply actions are configuration of any length, and what else has happened and is queued when the response comes ranges over all interleavings", "anchors": ["crates/kuadrant-filter/src/kuadrant/pipeline/executor.rs: digest, process_tasks", "crates/kuadrant-filter/src/kuadrant/pipeline/tasks/send_reply.rs: SendReplyTask::apply", "crates/kuadrant-filter/src/kuadrant/pipeline/tasks/fail.rs: FailTask::apply", "crates/kuadrant-filter/src/kuadrant/pipeline/tasks/store.rs: StoreTask::apply", "crates/kuadrant-filter/src/kuadrant/pipeline/tasks/headers.rs: ModifyHeadersTask::apply", "crates/kuadrant-filter/src/kuadrant/pipeline/tasks/dynamic.rs: process_response"]}
{"id": "C116", "title": "The reply of an authorization service decides about the request", "statement": "For an action of an auth service (without typed operation), the reply decides at once: a denial is sent to the client with its status (403 if it is 0), headers and body, and nothing else is evaluated; an approval lets the request go on, with the dynamic metadata published under the auth path and the headers added to the request; an approval with changes the filter cannot make (response headers, headers to remove, query parameters) and a reply that is neither are errors and answered with 500. A denial without status is a denial too.", "quantifier": "all configurations with a legacy auth action at any position, all hosts, all traffic before the reply, all replies of the documented shape, all CEL interpreters that follow CEL on the fragment used", "why_tests_cant": "The outcome comes from generated CEL text that is parsed and evaluated against a reply of any content; tests cover a few replies and cannot cover all of them in all states of the request.", "anchors": ["crates/kuadrant-filter/src/configuration/legacy_translation.rs: build_auth_on_reply", "crates/kuadrant-filter/src/kuadrant/pipeline/tasks/dynamic.rs", "crates/kuadrant-filter/src/kuadrant/pipeline/tasks/send_reply.rs"]}
{"id": "C117", "title": "The reply of a rate limit service decides about the request", "statement": "For an action of a ratelimit or ratelimit-check service (without typed operation), a reply OVER_LIMIT is answered to the client with 429, the headers of the reply and 'Too Many Requests', and nothing else is evaluated; OK lets the request go on; any other code is an error and answered with 500. The reply of a ratelimit-report service never changes the outcome of the request, whatever it is.", "quantifier": "all configurations with such an action at any position, all hosts, all traffic before the reply, all replies with a code and headers, all CEL interpreters that follow CEL on the fragment used", "why_tests_cant": "As for C116.", "anchors": ["crates/kuadrant-filter/src/configuration/legacy_translation.rs: build_ratelimit_on_reply", "crates/kuadrant-filter/src/configuration/legacy_translation.rs: translate_legacy_report_to_typed", "crates/kuadrant-filter/src/kuadrant/pipeline/tasks/dynamic.rs"]}
{"id": "C118", "title": "Header changes called for by a reply are made, or wait for the response", "statement": "Once a call has been answered, a reply action whose condition holds and that changes headers is carried out: the host is given the headers as they are then with exactly the named ones replaced; unless the host refuses to give the headers (or something was exported in their place), or they are response headers that are not there yet, and then the action was looked at again in the last callback. Once the response headers have arrived, changes to them are made. They are never forgotten, however many callbacks pass in between.", "quantifier": "all configurations, hosts, calls at any depth of reply actions, replies, and any number of callbacks in any order after the reply", "why_tests_cant": "The claim is about every callback sequence between the reply and the response and every state of the queue; the existing tests drive one task with one context.", "anchors": ["crates/kuadrant-filter/src/kuadrant/pipeline/tasks/headers.rs: ModifyHeadersTask::apply", "crates/kuadrant-filter/src/kuadrant/pipeline/executor.rs: Pipeline::eval", "crates/kuadrant-filter/src/kuadrant/pipeline/executor.rs: Pipeline::digest", "crates/kuadrant-filter/src/data/attribute.rs"]}
{"id": "C119", "title": "The headers of a rate limit approval reach the response", "statement": "When a ratelimit or ratelimit-check service (without typed operation) approves a request and sends headers along, these headers are set on the response once the response headers have arrived, whenever the approval came, unless the request was ended before.", "quantifier": "all configurations with such an action at any position, all hosts that give the response headers once they have arrived, all traffic, all approvals with headers, all CEL interpreters that follow CEL on the fragment used", "why_tests_cant": "As for C118; the approval normally comes in the request phase and the headers have to survive until the response phase.", "anchors": ["crates/kuadrant-filter/src/configuration/legacy_translation.rs: build_ratelimit_on_reply", "crates/kuadrant-filter/src/kuadrant/pipeline/tasks/headers.rs: ModifyHeadersTask::apply"]}
{"id": "C120", "title": "The host's answers decide what counts as done", "statement": "A reply, header change, property write or service call counts as made exactly if the proxy accepted it at that moment: a refused one is never taken for made, an accepted one never for refused, and a call in flight has the token that the proxy gave it.", "quantifier": "all configurations, all hosts with any answers at any moment, all traffic, every host call of every request", "why_tests_cant": "Mock hosts accept what they expect; the answers of a real proxy depend on the phase and on what happened before, and each of the call sites maps the statuses itself.", "anchors": ["crates/wasm-shim/src/wasm_host.rs: send_http_reply, set_attribute, set_attribute_map, dispatch_grpc_call", "crates/kuadrant-filter/src/kuadrant/context.rs: send_http_reply, set_attribute, set_attribute_map, dispatch_grpc_call"]}
{"id": "C121", "title": "Service messages survive the wire", "statement": "The bytes sent with a service call, decoded by a service that knows the same message types, give back the value that the action's message expression had; and the value that reply actions see is the one of the message the service encoded. Two messages with the same bytes stand for the same value.", "quantifier": "all schemas with any number of message types, fields and nesting, all messages of them (scalars, packed and unpacked lists, maps, oneofs, well-known types), all calls and answers of all requests", "why_tests_cant": "Tests encode and decode a few fixed messages; field numbers, wire types, packing, presence and the order of map entries range over unboundedly many schemas and values.", "anchors": ["crates/kuadrant-filter/src/services/dynamic.rs: dispatch_value, parse_message", "crates/kuadrant-filter/src/services/dynamic/converters.rs: cel_to_dynamic_message, dynamic_message_to_cel"]}
{"id": "C122", "title": "Calls and answers follow the descriptors the instance holds", "statement": "A service is called only when the instance holds descriptors for it, built in or delivered by the descriptor service; what is sent is the encoding of a message of the input type that these descriptors give the method. The answer is read by the same descriptors. A service becomes callable, for good, once the answer to a fetch that asked for it has a valid descriptor for it.", "quantifier": "all interleavings of configurations, timer ticks, descriptor answers and requests in one instance; all hosts and descriptor services", "why_tests_cant": "the descriptor manager is shared by all requests, and changes between the callbacks of a request", "anchors": ["crates/kuadrant-filter/src/services/dynamic.rs:dispatch_value", "crates/kuadrant-filter/src/services/dynamic.rs:parse_message", "crates/kuadrant-filter/src/filter/descriptor_manager.rs:get_pool", "crates/wasm-shim/src/filter/root_context.rs:create_http_context"]}
{"id": "C123", "title": "An action waits only for something that is missing", "statement": "While a request is processed, an action that has neither completed nor failed and has no call on its way waits for an action it depends on, or was evaluated during the last callback and then lacked something: an attribute of its expressions the host does not have yet, the value of a store action that is not over with, a body field not yet read, or headers the host does not have. Call and fail actions do not wait for a body that has ended. So once the host has everything, an action waits for nothing but its dependencies.", "quantifier": "all configurations, hosts, callback sequences and positions of the action in its set", "why_tests_cant": "it concerns every way evaluation can come out as pending, over all reachable states of caches, reservations and body parsers", "anchors": ["crates/kuadrant-filter/src/kuadrant/pipeline/executor.rs:eval", "crates/kuadrant-filter/src/data/cel.rs:eval", "crates/kuadrant-filter/src/kuadrant/pipeline/tasks/dynamic.rs:apply", "crates/kuadrant-filter/src/kuadrant/pipeline/tasks/store.rs:apply", "crates/kuadrant-filter/src/kuadrant/pipeline/tasks/headers.rs:apply"]}
{"id": "C124", "title": "The content type decides how a response body is read", "statement": "A field of the response body that a store action exports comes from the data of the last event but one if the first content-type header of the response names text/event-stream, with or without parameters, and from the body as one JSON document if it does not.", "quantifier": "all configurations, hosts whose response headers stay the same, CEL interpreters that read the body variables, sequences of body chunks and other events; actions that have not changed the response headers before", "why_tests_cant": "ranges over all content types, header orders, chunkings and the actions that may have parsed the body before; a test fixes one content type", "anchors": ["crates/kuadrant-filter/src/kuadrant/pipeline/tasks/store.rs:create_parser", "crates/kuadrant-filter/src/kuadrant/pipeline/tasks/token_usage.rs:create_parser"]}
{"id": "C125", "title": "A name means what was stored under it last", "statement": "When the condition, the message, the headers, the denial or the stored value of an action is evaluated, every name that store actions write has the value of the store action of that name that ended last with a true condition, never an older one and never one whose condition was false; a store action that exports such a name exports that value.", "quantifier": "all configurations, sequences of host events, hosts and CEL interpreters, any number of store actions writing the same name at any distance before; names without a dot that the plugin gives no meaning of its own", "why_tests_cant": "ranges over all orders in which store actions of one name end, with conditions true and false in any mix and calls between them; a test fixes one order", "anchors": ["crates/kuadrant-filter/src/kuadrant/pipeline/tasks/store.rs:StoreTask::apply", "crates/kuadrant-filter/src/kuadrant/context.rs:ValueStore", "crates/kuadrant-filter/src/data/cel.rs:eval"]}
{"id": "C126", "title": "One request cannot take down the others", "statement": "The requests of one plugin instance do not affect each other: what the plugin does for a request, and its configuration and descriptors, are the same whether or not another request is there, and no request ends the instance.", "quantifier": "all sequences of configurations, timer ticks, answers and host events of any number of requests interleaved in any way, all hosts and CEL interpreters, any one request taken away", "why_tests_cant": "ranges over all interleavings of any number of requests and everything clients can send as a request id; a test runs one interleaving and one header value", "anchors": ["crates/kuadrant-filter/src/kuadrant/pipeline/blueprint.rs:Action::to_core_task", "crates/wasm-shim/src/filter/kuadrant_filter.rs:on_http_request_headers", "crates/wasm-shim/src/filter/root_context.rs:create_http_context", "crates/kuadrant-filter/src/kuadrant/context.rs:ReqRespCtx::request_id"]}
{"id": "C127", "title": "The response body is searched for every field asked about", "statement": "When an action of the set that makes a call (and is not nested in another) asks for a field of the response body - in its condition, in its message, in any action that follows its reply at any depth - or the request data do, then at every moment of the request the response body is being searched for that field, or processing was ended by a reply, or the search failed, or it completed after the body had ended; in the last case, if the field was in what could be read of the body (in the document, or in the last but one event of an event stream) as a scalar, expressions are given a value for it. Between callbacks, a search that is not over looked at the body during the last callback. Likewise for the fields other actions of the set ask for.", "quantifier": "all configurations, action sets, calls with replies nested to any depth, request data, fields, hosts, and all states of all requests (any sequence of callbacks)", "why_tests_cant": "A test fixes one action set with one expression that asks; that no place an expression can stand in is forgotten, and that the search survives every order of pauses, refusals and body pieces, needs a case for every nesting and every execution.", "anchors": ["crates/kuadrant-filter/src/kuadrant/pipeline/blueprint.rs: collect_body_values, to_tasks", "crates/kuadrant-filter/src/kuadrant/pipeline/tasks/token_usage.rs", "crates/kuadrant-filter/src/kuadrant/pipeline/executor.rs"]}
{"id": "C128", "title": "Fields of the request body can be used by calls", "statement": "A call whose condition or message asks for a field of the request body with requestBodyJSON is given that field when the body has come and has it, as documented in the README, and is made. Expressions know no field of the request body unless a store action of the set, at any depth, asks for one: the other actions do not read it, and without such a store action a call that asks is never made, and no other action that asks changes headers, stores or denies.", "quantifier": "all configurations, action sets, actions nested to any depth, conditions and messages, fields, hosts, bodies, and all requests (any sequence of callbacks)", "why_tests_cant": "The tests of the functions evaluate expressions with the field already put into the context, and the tests of store actions only look at those; that no action of any set, in any execution, puts it there is a statement about all of them.", "anchors": ["README.md:137-181", "crates/kuadrant-filter/src/kuadrant/pipeline/tasks/store.rs: initial_body_state, create_parser, apply", "crates/kuadrant-filter/src/kuadrant/pipeline/tasks/dynamic.rs:83-127", "crates/kuadrant-filter/src/kuadrant/pipeline/blueprint.rs: collect_body_values, to_tasks", "crates/kuadrant-filter/src/data/cel.rs:290-305"]}
