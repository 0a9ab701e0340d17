# Formal model of wasm-shim: design

Paths are relative to /repo; `KF` = crates/kuadrant-filter/src, `WS` = crates/wasm-shim/src.

## 1. Architecture

The code is a proxy-wasm HTTP filter.  A configuration is compiled into
*blueprints*; each request builds a *pipeline* of tasks which is evaluated at
every HTTP phase callback and at every gRPC response.  The model follows that
structure.

Model files (definitions only; each definition cites the lines it models):

| Coq file (rocq/theories) | models |
|---|---|
| `Base.v` | byte strings, decimal ids, association lists, UTF-8 (no repo code) |
| `Value.v` | CEL values, JSON values and CEL syntax trees, as data types |
| `Headers.v` | KF/data/headers.rs |
| `AttrPath.v` | KF/data/attribute.rs (Path, typed decoding), KF/data/grpc.rs, string parts of context.rs |
| `Ctx.v` | KF/kuadrant/context.rs, cache.rs; the host interface KF/kuadrant/resolver/mod.rs and all external libraries as one record of oracles (`env`); the event log |
| `CelProps.v` | KF/data/cel.rs: `properties`, `new_expression`, known attribute types |
| `CelEval.v` | KF/data/cel.rs: `Expression::eval`, `AttributeMap`, `map_to_value`, predicates |
| `CelStr.v` | KF/data/cel/strings.rs |
| `Sse.v` | store/sse_body_parser.rs (events) and sse_line_parser.rs |
| `Body.v` | store/{body,json_body,sse_body}_parser.rs, strategies of token_usage.rs |
| `Tasks.v` | KF/kuadrant/pipeline/tasks/*.rs |
| `Exec.v` | KF/kuadrant/pipeline/executor.rs |
| `Config.v` | KF/configuration.rs (data types) |
| `Serde.v` | KF/configuration.rs (reading the configuration file), WS/filter/root_context.rs:130-165 |
| `Legacy.v` | KF/configuration/legacy_translation.rs |
| `Blueprint.v` | KF/kuadrant/pipeline/blueprint.rs, KF/services/mod.rs |
| `Factory.v` | KF/kuadrant/pipeline/factory.rs |
| `Filter.v` | WS/filter/kuadrant_filter.rs |
| `Root.v` | KF/filter/descriptor_manager.rs, WS/filter/root_context.rs, one wasm instance with its HTTP contexts |
| `Spans.v` | KF/tracing/processor.rs |
| `Tracing.v` | KF/tracing/mod.rs and propagation.rs, the tracing part of KF/kuadrant/context.rs, tracing_decorator.rs: which trace context the calls of a request carry |
| `Conv.v` | KF/services/dynamic/converters.rs |
| `Deploy.v` | WS/wasm_host.rs (request side), KF/services/dynamic.rs: the environment the other files take as argument, made from a proxy-wasm host and descriptor pools |
| `Wire.v`, `ValueBytes.v` | converters.rs `cel_value_to_bytes`: the export format, with prost's encoding of google.protobuf.Value and Struct (no length limits) and the conversion of integers to doubles |
| `Proto.v` | crate prost_reflect: writing and reading of service messages (`DynamicMessage::encode_to_vec`, `decode`), called from KF/services/dynamic.rs; used as an instance of the wire format that Deploy.v leaves open |
| `CelSyn.v` | the syntax of CEL from its language definition, not from /repo: needed to say what generated source text means |

Lemma files `P_*.v` and the concrete hosts and configurations of the examples
(`Demo.v`, `DemoCfg.v`):

| file | content |
|---|---|
| `P_Frame`, `P_Apply` | what reading, evaluating and applying a task can change |
| `P_Exec`, `P_Run` | the executor as a small-step relation; invariants of it are invariants of every callback sequence of the filter |
| `P_Inv`, `P_Ids`, `P_Term`, `P_Bar`, `P_Hist` | layered invariants: shape of the queues, ids and tokens, termination and teardown, the pause counter, the history |
| `P_Plan`, `P_Deps`, `P_Order`, `P_Cfg` | tasks versus configured actions; dependencies; order |
| `P_Grow`, `P_Wake`, `P_Fail`, `P_Head`, `P_Fed`, `P_Told`, `P_Eff`, `P_Rid`, `P_Scope`, `P_Blind`, `P_Wait`, `P_Last` | events of one callback; no action is lost; failure modes; cached header maps; where body fields come from; the states in which expressions are evaluated and the variables they get; effects; request id; scopes and reservations; why a task is evaluated again; which store action a stored value is from |
| `P_Route`, `P_Sse`, `P_Utf8`, `P_Eval`, `P_Props`, `P_Root`, `P_CelSyn` | host index, event streams, UTF-8, expression data, root context, CEL syntax |
| `P_Verdict` | expressions about one variable can be evaluated as soon as it is bound |
| `P_Proto` | numbers, lengths and fields of service messages are read back as they were written |
| `P_Wire`, `P_F64` | an independent reader of the protobuf wire format; what the bits of a double stand for |

`Prop_Know.v` contains no theorem but the meaning, used by most property files, of "the
text x in an expression of the action a has the value v at this moment"
(`evaluates`): CEL computes v from variables in which every attribute selected in the
expression has the value known by then from the host, a header write, an export or a
store action (`known`), and every other name means the innermost reply of that name.
Values of store actions are those stored last: `newest`, with `skipped` for the store
actions that ended later with a false condition.
Every body field the expression asks for has the value the body has there (`body_says`,
spelled out at the top of `P_Fed.v`).

The other `Prop_*.v` contain the property theorems, each after the small independent
specification it is stated with, followed by `Print Assumptions` and an `Example`
meeting its hypotheses.

Modelling decisions

* Every function is a total computable Gallina function.  Panics and errors are
  explicit result values.
* Host calls and external crates (CEL interpreter, prost, acutejson, serde_json,
  uuid) are *function arguments* (records of oracles) universally quantified in the
  theorems, never axioms.  The host oracle gets the full history (log) of inputs and
  outputs, so it may behave differently at any moment; two identical reads with no
  event and no write in between give the same answer (single-threaded Wasm).
* `dyn Task` closures are defunctionalised: the closures of `DynamicTask::apply` and
  `noop_response_processor` become constructors.
* Strings are lists of bytes (`ascii`); code that iterates over chars but only
  compares with ASCII characters is modelled on bytes, which is equivalent on valid
  UTF-8.  CEL string functions, where code points matter, use lists of code points
  with an explicit UTF-8 length.
* u32/usize arithmetic wraps or is checked exactly where the code does.  The deployed
  target is wasm32-wasip1, so usize is 32 bits.
* HashMap/BTreeMap become association lists; iteration order of a HashMap is the
  list order (see trusted base).

A property that is false of the faithful model is proved false
(`..._refuted`, with a concrete witness), together with the strongest correct
restriction found (`..._partial`).

### Tests of the model

`Replay.v` is generated by `tools/replay.py` from the integration tests of the repository
(crates/wasm-shim/tests, 33 of the 35 tests; the other two are about configuration only). For each
test it gives the model the test's own configuration text, the protobuf descriptors vendored in the
repository, and the host answers listed in the test for each callback. `vm_compute` then checks that
the model makes the calls, replies, header and property changes and metrics the test expects, with the
expected return values; message and property bytes are compared where the test gives them. JSON, CEL
and the streaming JSON parser are small stand-ins in `ReplayLib.v`. A header map that the harness
answers with BadArgument is an empty map here: those tests ask for the map again later, which is
what the code does with an empty map and not with an error. These are tests, not proofs: no claim
in MANIFEST.json rests on them.

## 2. Trusted base

* Coq 8.16.1 kernel (and vm_compute for the witnesses).
* `Print Assumptions` of every property theorem prints "Closed under the global
  context".  Loading the standard library brings in the declarations
  `Coq.ssr.ssrunder.Under_rel.*` (opaque module fields of the standard library); no
  theorem depends on them.
* The reading of the Rust code into Gallina: each definition cites file and lines.
* External code replaced by oracles, universally quantified in the theorems: CEL
  parser and interpreter (crate cel), prost-reflect's coding of service messages, acutejson,
  serde_json, uuid, tracing/opentelemetry, chrono and float conversions, the proxy-wasm
  host.  radix_trie is replaced by its specification (longest stored prefix), nom's
  streaming combinators by their documented behaviour.
* Oracles are deterministic functions of the history: the host may answer anything at
  any moment, but twice the same without an event in between.

Assumptions that appear as hypotheses of theorems:

* `fresh_tokens`: the host does not give a new call a token of a call still in flight.
* `serves`, `try_from … = Some`: the configuration compiled and an action set was chosen.
* names produced by the CEL parser have no dots or backslashes (C56-C59, C81).
* no two descriptor sets seen by an instance share their 64-bit hash (C60, C62).
* schemas are closed, with distinct names and the standard well-known types (C65-C67,
  C83-C87, C98, C99).
* `Serde.v` describes what serde_derive generates for configuration.rs; the JSON parser
  and cel's duration parser are oracles.  Left out: serde_json's nesting limit, and unit
  variants written as an object with an empty object in it.
* `Tracing.v` describes the crates tracing, tracing-subscriber, tracing-opentelemetry and
  opentelemetry from their documentation: the per-thread stack of entered spans, contextual
  parents, a filter per layer, the composite propagator; the parsers of the headers are
  oracles, and whether entering a span activates its context is a parameter.
* `speaks_cel` (C116, C117, C119): the interpreter parses and evaluates the fragment of CEL that the generated
  reply actions are written in as `read_cel` and `aeval` in `Prop_Legacy.v` do: literals, names, selection
  and `has` on messages, `&&`, `||`, `!`, `?:`, comparison of integers, `uint`, `size` of lists, message and
  list construction.  Selecting a message field that is absent is an error there.
* `CelSyn.v` stands for the CEL parser in C54, C55, C88, C89.  Left out of it: optional
  values and back-quoted identifiers; integer literals are not range-checked.

Not modelled:

* logging, span contents (KF/tracing except the span buffer and the propagation of
  contexts; KF/services/tracing.rs only as far as whether and where traces are sent);
* WS/lib.rs and the tracing parts of WS/wasm_host.rs;
* mutex poisoning, allocation failure, metrics other than the six counters;
* the CEL interpreter's own functions; the wire format of service messages is an oracle
  everywhere but in C121, where `Proto.v` (library behaviour) takes its place;
* tests, the mock resolver and the feature `debug-host-behaviour`.

## 3. How the properties are proved

Properties of requests (C01-C21, C30-C40, C69-C72, C75-C79, C90, C94-C99, C102-C104, C109-C112, C114-C120, C123-C125, C127, C128) are statements
about the event log of `run E fa l`, the log of an HTTP context with factory `fa` after
an arbitrary list `l` of callbacks, for an arbitrary environment `E`.  The executor is
turned into a small-step relation (`P_Exec`), the filter into sequences of those steps
(`P_Run`), and invariants are proved by induction over them.  Ghost events (`EvEval`,
`EvDone`, `EvFailed`, `EvTerminate`, `EvHandle`, `EvTeardown`) mark what the executor
does; no function of the model reads them.  What an action id stands for is defined
from the configuration (`configured`, `has_action`), not from the tasks.

Properties of one instance (C60-C63, C82, C122, C126) are about `vrun`, the interleaving of root
and HTTP callbacks; C113 is about `trun`, the interleaving of what its requests do to spans.  The others are about functions: parsers (C41-C49, C80), string
functions (C50-C53), the configuration file (C105-C108), expressions (C22-C29, C56-C59, C73, C74, C81, C100, C101), generated text (C54,
C55, C88, C89), the span buffer (C64) and protobuf conversion (C65-C68, C83-C87); they
are proved by structural induction.

A property that is false of the model has a `_refuted` theorem with a concrete witness,
and where possible a `_partial` one with the strongest restriction found to hold.

## 4. Results

All theorems are closed under the global context.  `python3 tools/manifest.py`
regenerates MANIFEST.json and the table below from the theorem names and
tools/notes.json.

<!-- results -->
| id | title | status | theorems | note |
|---|---|---|---|---|
| C01 | gRPC actions wait for the actions they must follow | proved | 2 |  |
| C02 | The execution plan orders actions around sequential ones | proved | 1 |  |
| C03 | Sequential ordering holds for every kind of action | partial | 2 | The statement is false of the code: only gRPC actions carry dependencies, so a deny, headers, store or fail action marked sequential runs at once. Proved as a refutation; C01 and C02 hold the part that is true. Partial: in the first callback the actions that make no call are evaluated in the order of the configuration. |
| C04 | Nothing runs after termination | proved | 1 |  |
| C05 | A pipeline is reported complete exactly when no work is left | proved | 1 |  |
| C06 | Unknown, stale or duplicate response tokens are harmless | proved | 1 |  |
| C07 | Each response is handled exactly once by the call that caused it | proved | 3 |  |
| C08 | Pause counter equals the guard calls in flight | proved | 1 |  |
| C09 | A phase is held while a guard call is in flight | proved | 2 |  |
| C10 | A terminated request is not held by abandoned guard calls | partial | 3 | Refuted as stated: the wrappers that enforce failureMode and tracing do not forward the guard flag, so after a termination the calls still on their way keep the pause counter up and the reply's own response headers are paused. Proved instead: with no call on its way a terminated request is never paused, and the answer to the last one resumes a held response; a callback pauses after the termination only if a guard's call was on its way at that moment (or the response body ends while some call is). Missing: release while such calls are still on their way. |
| C11 | failureMode deny rejects the request | proved | 4 |  |
| C12 | failureMode allow lets the request through | proved | 3 |  |
| C13 | failureMode also governs actions that had to wait for data | partial | 1 | Refuted: after an action has been put off once (ORequeued) its failure-mode wrapper is gone, so a deny-mode guard that fails later is dropped silently. C11_never_dropped_at_once shows this is the only way such an action can be dropped. |
| C14 | failureMode governs the actions run on a reply | partial | 1 | Refuted: tasks created for onReply are not wrapped by the failure mode, so a failing reply action of a deny-mode service lets the request through. |
| C15 | Reply actions run in order before anything queued | proved | 1 | Proved for the callback that delivers a readable successful response, for every configuration, nesting depth and history: the reply actions are evaluated in configuration order before anything else, cut short only by one that terminates. 'Each at least once' is about evaluation; a reply action that needs data not yet available is put back and evaluated again later. |
| C16 | A terminal action stops everything after it | proved | 2 |  |
| C17 | At most one reply per request | proved | 1 |  |
| C18 | No lost wake-up | proved | 1 |  |
| C19 | Teardown runs exactly once, last | proved | 1 |  |
| C20 | An action makes at most one call | proved | 2 |  |
| C21 | A failed earlier action does not silently disable later guards | partial | 2 | Refuted as stated: an action without failure mode (headers, deny, store, fail or an action requeued while waiting) that fails is dropped without completing, so the guards waiting for it are never evaluated while the request and the response headers pass. Proved instead: when processing ends without termination every action completed or failed, so nothing is skipped unless some action failed. |
| C22 | Setting a header replaces exactly that header | partial | 3 | Holds for the exact spelling of the header name; the case-insensitive reading is refuted (set and remove compare names as given). |
| C23 | Header actions preserve unrelated headers | proved | 1 |  |
| C24 | Attributes are read-your-writes | proved | 4 |  |
| C25 | Attribute reads are stable within a request | proved | 1 |  |
| C26 | Unavailable or failed reads are retried | proved | 2 |  |
| C27 | Attribute paths survive printing and parsing | partial | 4 | Holds for paths without backslashes in their segments; refuted in general because the printed form escapes dots but not backslashes. |
| C28 | Distinct attributes never share a cache entry | partial | 2 | Holds for paths without backslashes; refuted in general, two different paths can share one cache entry. |
| C29 | source.remote_address is the peer IP without port | partial | 2 | Holds for addresses with a port and no other colon; refuted for IPv6, the address is cut at the first colon. |
| C30 | One request id per request | partial | 3 | Proved: one id throughout. That it is the client's is proved when something used the id before the plugin changed the request headers; refuted otherwise: a headers action that sets x-request-id before the first use replaces it. |
| C31 | A call's reply is visible exactly to its own reply actions | partial | 5 | Scope proved for every action tree and history: a reply is visible to an action iff a call the action is nested in was answered with it; the innermost wins; replies outside the scope change no step of the action. Refuted: a call whose variable is named auth (or request, source, destination, metadata) is hidden by the attribute map, which overwrites the root name. Partial: expressions see the reply unless the name is one of the seven overwritten roots or a stored root. |
| C32 | Reading a value not yet stored waits instead of reading null | partial | 6 | Proved: a collected path whose prefix is reserved and not stored keeps the expression pending; a stored value is seen at its path; at every moment the value in the store at a path is that of the configured store action of the path that ended last with a true condition, and there is none if all that ended had a false one. Refuted: a bare name (no selection) is never collected, so it is not waited for; a collected path that is a proper prefix of the stored path (auth.identity of auth.identity.user) is neither waited for nor seen, it is null. |
| C33 | Reservations are released exactly when the last holder goes away | proved | 3 | Proved for all histories of the pipeline: a path is reserved iff a live task will store it; at the start exactly the paths of the configured store actions; none once the queues are empty. |
| C34 | A deny reply says what was configured | partial | 2 | The general theorem covers every reply of every history, status up to 32 bits; refuted for larger statuses, which are cut off to 32 bits (u64 as u32). |
| C35 | Exact host beats wildcard, longer wildcard beats shorter | partial | 3 | Proved for every host without '$' and names without '$' or a double star, the host being what stands before the first colon. Refuted: an IPv6 host is cut at its first colon and never found; a host containing '$' is given the sets of an exact name it merely ends with. |
| C36 | Host matching ignores case and port | proved | 2 | Candidates do not depend on case or port of the request host; the whole factory does not depend on the case of configured names. |
| C37 | First action set whose conditions hold, in configuration order | proved | 1 | Stated for the blueprint selected; refusing and accepting are values of the predicate texts at request headers. |
| C38 | A route predicate that cannot be decided fails closed | proved | 1 | The log of the whole request is given: 500 reply, errors metric, no pipeline. The callback still returns Continue. |
| C39 | A wildcard host only covers whole labels | partial | 2 | Proved for wildcards '*.rest'; refuted for '*rest', which covers hosts in the middle of a label. '*.rest' also covers '.rest' (empty label). |
| C40 | Hosts that are not configured are not affected | partial | 2 | The log of the whole request is given. Refuted: the allowed metric is counted too. |
| C41 | SSE parsing does not depend on chunking | partial | 1 | Any chunks of whole characters; cuts inside a character are the subject of C45, where the claim fails. |
| C42 | Serialised events are parsed back | partial | 2 | LF and CRLF line endings, data whose first and last line is not empty. With CR endings the final blank line is never recognised, so the last event is lost (refuted). |
| C43 | Multi-line data is joined with newlines | partial | 3 | As the specification says for blocks whose first and last data line is not empty; otherwise refuted. What the code does in every case is proved as well: empty data lines at the front and one at the end do not count, the rest is joined, and a block of which nothing is left makes no event (C43_which_data_lines_count). |
| C44 | SSE parsing always terminates and keeps only an unfinished line | proved | 1 |  |
| C45 | Splitting a stream inside a character is harmless | partial | 2 | False: a chunk that ends inside a character is rejected as invalid UTF-8. Partial: cuts between characters are harmless, and a cut stream is accepted only if every cut is between characters. |
| C46 | Usage is taken from the last event before the terminator | proved | 2 | Both for store actions and for the token usage task, whatever the chunks (of whole characters). |
| C47 | Every body byte is parsed exactly once | proved | 1 | For a host whose buffer is at each evaluation a prefix of the body, the case in which the request or response is paused. |
| C48 | Event-stream bodies are not parsed twice | partial | 3 | False: the parser of event streams and the token usage task read the whole buffer again at each evaluation. Partial: with a host that shows each piece of the stream once, every byte is parsed once. |
| C49 | Body scalars keep their JSON type | partial | 3 | null, booleans, integers in range and strings that look like none of them; strings that look like another scalar change type in JSON bodies (refuted). Token usage keeps all types but null. |
| C50 | split and join are inverse | partial | 5 | join(split(s)) is s for every separator and every limit but 0, and the pieces are strings again. The converse holds when no part runs into the separator after it; refuted in general (parts 'a' and '' with separator 'aa'). |
| C51 | substring, charAt and indexOf agree | partial | 3 | For indices below 2^32: the deployed target has 32-bit indices, larger and negative ones wrap (refuted). indexOf gives the first and lastIndexOf the last place as byte offset. |
| C52 | indexOf counts characters | partial | 4 | False for strings that are not ASCII (byte offsets, panic on an offset inside a character) and for lastIndexOf with an offset, which counts from the offset. Proved for ASCII strings otherwise. |
| C53 | replace, trim and case mapping are lawful | proved | 5 |  |
| C54 | Configuration text cannot break out of a generated CEL string | proved | 2 | For every text and every surrounding source. CEL's lexer and parser are modelled from the language definition (CelSyn.v), since the parser is a dependency. |
| C55 | Legacy predicates are combined as documented | partial | 4 | Proved in any logic with associative && and \|\| (two-valued, and two readings of CEL's with errors), for predicates that are expressions not ending in a comment, and blocks whose only predicate is not a conditional when there are several blocks. Refuted otherwise: a conditional in one of several blocks swallows the blocks after it; a trailing comment hides the closing parenthesis. |
| C56 | Every attribute an expression reads is fetched before evaluation | partial | 3 | Refuted as stated: attributes reached by indexing (request['path']) and selections on the result of a method call are not collected and read as null. Proved for tidy expressions (no selection on a call or literal): every mentioned attribute under request, source, destination, metadata is fetched, or a collected prefix of it is, and bound with the host's value. Identifier names without dots are assumed (clean), which the CEL grammar guarantees. |
| C57 | Attribute collection invents no attributes | partial | 4 | Refuted as stated: a comprehension variable or a selection on a map literal makes up attribute paths, which replace the real ones. Proved for tidy expressions: collected means mentioned, and only mentioned paths (and request.url_path for request.grpc) are fetched. |
| C58 | Collected attributes are all bound | partial | 3 | Refuted as stated: connection.* is fetched but never bound; a collected prefix hides the longer path. Proved for paths no collected or stored prefix of which was decided first. |
| C59 | Waiting expressions are pending, not wrong | proved | 1 | Proved for every expression with grammar names, every context and host: pending exactly when something collected is pending or a body field is missing, provided nothing fails. |
| C60 | Descriptors: embedded ones are never replaced | partial | 3 | Proved: a service that has a descriptor has one ever after; the built-in descriptor of a configured built-in service is never replaced once configured, if no answer brought one for that service before. Refuted otherwise: an unasked descriptor that came earlier is used instead of the built-in one, because add_expected keeps an existing entry. Assumes no two descriptor sets seen by the instance share a 64-bit hash. |
| C61 | Descriptors: each missing one has at most one fetch in flight | proved | 4 | Proved for all histories of one instance: a service is requested again only after the fetch that asked for it was answered; a configured service without descriptor and open fetch is requested at the next tick; if the host grants the timer it runs while such a service is configured. |
| C62 | Descriptors: only a valid one resolves a service | proved | 1 | Proved for all histories, given no hash collision among the descriptor sets seen. |
| C63 | A rejected configuration changes nothing for traffic | proved | 3 | Proved for a whole wasm instance with any number of interleaved requests: each is the run of the single-request model with the configuration in force when it was created; inserting a rejected configuration changes no request. The HTTP contexts' encode/decode oracles are adversarial, so the effect of descriptors on traffic is not tied to the manager's state here. A callback that panics ends the instance. |
| C64 | The span buffer is bounded and keeps the newest spans | proved | 6 | Proved for every history of span ends, exports and clears and every capacity ≥ 1: contents, exports (exactly the newest, then empty), order and single export, and when the loss is reported. A capacity of 0, which the filter never uses, behaves as 1. |
| C65 | Values survive conversion to protobuf and back | proved | 2 | For every schema and value of any depth. The schema is assumed closed, with distinct field names per message and the standard Timestamp. Values that fit are those in range, with all fields without presence set and one member per oneof. Examples show what changes outside that: wrapped JSON-like values are unwrapped, and defaults are added. The float and calendar libraries are oracles; C121 is about the wire format. |
| C66 | Out-of-range numbers are rejected | partial | 5 | Proved: a number in the field's range arrives unchanged; 64-bit fields and enums reject what they cannot carry. Refuted: 32-bit fields silently wrap a number out of range (`as` casts), every such number is changed, and two distinct map keys can fall together. |
| C67 | All message types reachable from a method are declared | proved | 1 | Every message type reachable from the reply type is declared exactly once, with every field at its type, for recursive schemas too; nothing unreachable is declared. |
| C68 | Header lists are converted faithfully | proved | 2 |  |
| C69 | Every request is counted once | partial | 2 | Proved for every request on which the headers callback returns; refuted for requests on which it traps (an identifier expression of dev mode that does not parse), which are counted by no metric. |
| C70 | A request without a pipeline is never paused or resumed | proved | 2 |  |
| C71 | A held response is always released | partial | 3 | Refuted as stated: after a failed action the actions waiting for it stay queued, and the end of the response body is paused with nothing in flight. Proved instead: when no action failed, a response paused at its end waits for a call or for an action evaluated in that very callback, and that action, at any depth of its set, then found something missing (`lacks`, C123). Missing: that the second alternative is impossible; the refutation of C123 shows a store action for which it is not. The action added by developer mode is not characterised further. |
| C72 | Pausing ends with a resume | proved | 1 |  |
| C73 | Binary attributes are decoded exactly | proved | 4 |  |
| C74 | requestData keys are split into domain and field | proved | 2 |  |
| C75 | terminal is honoured by every action kind | partial | 3 | Refuted for calls (terminal is ignored on gRPC actions) and for headers actions whose list is empty. Proved for the others: a terminal action that completes without ending processing had a false condition, or was a headers action with nothing to set. |
| C76 | Legacy actions run one after another | proved | 2 |  |
| C77 | Mixed legacy and typed sets keep configuration order around sequential and legacy actions | partial | 2 | The order among legacy actions and among typed actions holds; refuted for a legacy action following typed ones, which waits only for its immediate predecessor. |
| C78 | The dev-mode header is exactly the request id | partial | 3 | Refuted: the client's x-request-id is pasted unescaped into a CEL expression, so a quote in it either panics or adds headers to the response. Proved for ids without quote and backslash, for every CEL parser that reads plain literals as they are. |
| C79 | Only terminal actions and failed guards end processing | proved | 1 |  |
| C80 | Bodies may come piece by piece | partial | 2 | False for JSON bodies read by store actions, which skip as many bytes of each piece as they have seen before. Proved for the token usage task. |
| C81 | request.grpc names the called service and method | proved | 2 | Proved for tidy expressions with grammar names; the hypothesis excludes a value stored at the path request itself, which replaces the whole map. |
| C82 | Only what is configured is requested from the descriptor service | partial | 4 | Refuted in three ways: services named only by a rejected configuration, services removed from the configuration, and services nobody asked for. Proved: a requested service was named by some received configuration as a dynamic service and has no built-in descriptor. |
| C83 | No part of a message expression is silently lost | partial | 3 | Proved: a struct that sets at most one member of each oneof has all its declared fields in the request. Refuted: of two members of a oneof only the last declared one is sent; a struct of another message type is accepted and its fields dropped. |
| C84 | Converted requests have the declared field types | partial | 2 | Proved for all values, with map keys only loosely typed. Refuted for map keys: string and boolean keys are accepted in maps with number keys, which the encoder does not expect. |
| C85 | A reply that conforms to its schema can be read | partial | 2 | Proved for pools with the standard well-known types and replies whose timestamps the calendar library represents. Refuted otherwise: one timestamp out of range hides the whole reply. |
| C86 | Expressions see fields with their registered type | partial | 2 | Proved for fields that are not unwrapped. Refuted for google.protobuf.Struct, Value and ListValue fields: registered as structs, seen as maps, plain values and lists. |
| C87 | What was read from a reply can be sent on | partial | 3 | Proved for messages without wrapped types, undeclared enum numbers, or timestamps and floats outside the other side's range; equality is up to field order and explicit defaults. Refuted for wrapped values, which the field rejects, and for enum numbers the schema does not declare. |
| C88 | A rate-limit action sends the documented request | partial | 4 | Proved for every scope, block list and request data whose expressions are CEL expressions not ending in a comment (the comment case is refuted in C55). A static ratelimit.hits_addend is pasted unescaped and is treated as an expression: refuted. A domain or number of hits in a conditional block is used whether or not its predicates hold: refuted. |
| C89 | An auth action sends the documented check request | partial | 2 | Proved for all data whose evaluated expressions are CEL expressions not ending in a comment. Whether a datum refers to the authorization result is decided by searching its text for "auth.": both directions are refuted (oauth.user is sent as text, auth['identity'] is evaluated before authorization). |
| C90 | Sequential calls wait for the reply actions of the calls before them | partial | 2 | Refuted: a call is marked completed as soon as its response is handled, so an action that must follow it can be sent while a call among its reply actions is still on its way. What holds is C15 (reply actions are evaluated first) and C01 (the call itself is completed). Partial: when the call is sent, all reply actions of an answered call it has to follow have been evaluated. |
| C91 | Exported values read back as what they were | partial | 5 | Proved for every value whose integers are at most 2^53 in absolute value and whose byte strings are UTF-8, of any depth. Larger integers are read within one part in 2^53 (proved) and can fall together (refuted); bytes that are not UTF-8 are replaced, so different byte strings can be exported as the same bytes (refuted). The wire format is modelled without length limits; a second, independent reader of the wire format is the specification. |
| C92 | Only values that cannot be shown are refused | proved | 1 | Both directions, for every value. |
| C93 | Exports are deterministic | proved | 1 | Both directions, for values whose integers are at most 2^53 and whose byte strings are text (the rest is refuted in C91). |
| C94 | Properties set on the host come from store actions | proved | 1 | Full. The exported bytes are related to the value as in C91; the name is spelled out for paths without a backslash. |
| C95 | Header changes add up | proved | 1 | Full, for every header write of every execution. What the dev-mode header contains is in C78. |
| C96 | Completed actions did their job | partial | 3 | Proved for hosts that do not answer 'not available' when a property is set, and so for the deployed host (wasm_host.rs:93-102), without further hypothesis. Refuted for the resolver interface in general: StoreTask takes 'not available' for success. |
| C97 | Calls say what was configured | proved | 1 | Full. The alternative of the dev-mode tracker is only there for encodings that accept a boolean as message; C98 shows that the deployed one does not. |
| C98 | Services get the value of the message expression | proved | 1 | Full on the model of wasm_host.rs and services/dynamic.rs. The wire format itself is an oracle here; C121 replaces it by a model. 'Fits' is as in C65; C83 says what happens to structs that do not fit. |
| C99 | Answers of services are used | partial | 2 | Proved for answers of at least one byte (and timestamps in range, C85). Refuted for the empty message, which is how a message with only default values is sent: get_grpc_response takes size 0 for an error (wasm_host.rs:193-207), so the call fails and the request is rejected. |
| C100 | Host attributes are seen with their documented type and value | partial | 5 | Of the faithful model the claim holds for every type but maps: attributes typed as maps other than request.headers (source.labels, destination.labels, filter_state, request.context_extensions) and response.headers are never readable, whatever the host answers. |
| C101 | Repeated headers are seen once, joined in order | proved | 2 | The specification determines the map up to the order of its entries. |
| C102 | Selections in expressions mean what was supplied for them | proved | 2 | Full for selections with at least two names, of names the evaluator binds (bindable), free of backslashes; not for the root auth, where nothing stored means null, and not if a store action stores the path request itself. CEL is an oracle; the hypothesis about it is that the value of a selection is found by selecting the fields one after the other. |
| C103 | Body fields seen by expressions are fields of the body | proved | 3 | Full for literal field names. The JSON libraries (serde_json, the streaming pointer parser) and the CEL interpreter are oracles; the hypothesis about CEL is that the two functions return the entry of their variable (cel.rs:380-434). What is proved includes the code's own shortcomings: see C48 and C80 for streams cut into pieces. Which of the two readings applies follows from the response headers, as host and actions have them at the time (see C124). |
| C104 | Actions that depend on a body wait for it | proved | 5 | Full for literal field names. That a body has a value only after the host announced it assumes the streaming parser is not done before it has read anything. |
| C105 | The configuration file means what is written in it | proved | 2 | Full for the JSON value parsed by serde_json; the JSON parser and cel's duration parser are oracles. serde_derive's behaviour is modelled from its documentation and generated code, as its source is not in the sandbox. Not modelled: serde_json's nesting limit of 128, and a unit variant written as an object with an empty object in it. A struct may also be written as the list of its fields, and this is part of the specification. |
| C106 | Order of entries and unknown entries do not change a configuration | proved | 5 | Full. For the two maps (services, request data) the result is the same set of named entries; their order in the model stands for a HashMap's. That order has no influence either: settings that differ in it make the same instance, so every request is treated alike (C106_same_settings_same_factory, C106_order_never_changes_treatment; the request data is sorted by domain and field, and no two keys have the same). |
| C107 | Unusable actions are rejected, not dropped or reinterpreted | partial | 3 | Refuted twice: an unknown option (isguard) is ignored and the default used, and a typed action without its predicate becomes a legacy action if it also has a scope. Partial: every action listed is kept, in order, and has its mandatory entries. |
| C108 | The configured time limit of a service is the one used | partial | 3 | Refuted for limits below a millisecond: proxy-wasm hands the host whole milliseconds, so 900us becomes 0. The rest is full. cel's duration parser is an oracle. |
| C109 | A rejected request is never passed on | partial | 3 | Proved for rejections by an action that ends processing, and for any reply where all deny actions are terminal. Refuted without that: a deny action that is not terminal sends its reply, and the response to a later call resumes the request. |
| C110 | Guards decide before the request passes | partial | 3 | Refuted twice: the headers pass while a guard waits for the request body, and while a sequential guard is behind a call that is not guarded. Partial: when the request passes, each action has completed or is held up by one that failed, by an open call that is not a guard's, or by one that was just evaluated and put off. |
| C111 | Only what waits is resumed | partial | 3 | Refuted twice: the response to a call that is not guarded resumes a request that was never paused, and the response to the trace export resumes it a second time. Partial: where only guards make calls and the host answers only open calls, every response comes while the host is paused. |
| C112 | Traces go to the configured tracing service, and only there | partial | 4 | Proved: where spans go, that they go at most once, and that those pending at the end of a pipeline are sent when dev mode (httpHeaderIdentifier) is configured too. Refuted without it: no identifier, no export. Two more refutations: an unknown tracing service is accepted silently, and the name of a service of another type makes it be called with a message that is none, so that all requests are rejected if it denies on failure. |
| C113 | Calls are made in the trace of the request they are for | partial | 6 | Refuted three ways: interleaved requests use each other's trace; a request without one joins the trace of another (where entering a span activates its context); and where the host logs more than is recorded (defaultLevel INFO with debug logs, or no defaultLevel with info logs) calls carry no trace at all. Partial: where the host logs no more than is recorded and requests do not interleave their work, calls are in the trace of their request. Proved: requests no span is made for pass on trace, parent and baggage. |
| C114 | Headers are changed only when they are there | proved | 2 |  |
| C115 | The reply to a call leads to the verdict of its reply actions | proved | 1 | Reply actions that are themselves calls are outside the claim (C97 says what is sent for them); conditions are about the reply only, under a name nothing else stores to. |
| C116 | The reply of an authorization service decides about the request | partial | 2 | Proved for replies whose denial has a status (C116_authorization_replies_decide). Refuted for a denial without one (C116_every_denial_is_sent_refuted): the generated expression selects status.code without has(), evaluation fails, the denial is dropped and the request is passed on. Both rest on speaks_cel: parsing and evaluation of the fragment of CEL the generated texts use are as specified in Prop_Legacy.v; the refutation uses that selecting an absent message field is an error (the interpreter's source was not available; the repository's converters leave unset message fields out of the struct). |
| C117 | The reply of a rate limit service decides about the request | proved | 2 | Rests on speaks_cel, the reference semantics of the CEL fragment in Prop_Legacy.v (the report part does not need it). |
| C118 | Header changes called for by a reply are made, or wait for the response | proved | 2 | C118_header_changes_are_made_or_wait covers both header maps; C118_changes_of_response_headers_are_made adds that waiting ends with the response headers, for hosts that give them from then on. The condition and the headers are expressions about the reply alone (says_of), whose variable has a name of its own (own_name). |
| C119 | The headers of a rate limit approval reach the response | proved | 1 | Rests on speaks_cel, the reference semantics of the CEL fragment in Prop_Legacy.v. |
| C120 | The host's answers decide what counts as done | proved | 1 |  |
| C121 | Service messages survive the wire | partial | 8 | Proto.v models how prost-reflect writes and reads messages; the library is not part of the repository. Proved for schemas with distinct field numbers, messages whose fields are declared and in range, nested at most as deep as the reader goes (100 levels), and without a negative zero in a field that has no presence. Refuted outside: the sign of such a zero is lost, and a message nested deeper is sent but cannot be read. Missing: unknown fields, which these messages do not have. A string that is read is valid UTF-8, or the message is not read at all. |
| C122 | Calls and answers follow the descriptors the instance holds | partial | 5 | The last sentence and the two about what is held are proved in full; the request's view of the descriptors (`d_pool`) is tied to the root context's state at the callback at hand by the hypothesis `shared`. That the answer is read by the descriptors of the call is false (refuted): the answer to another fetch can replace them meanwhile, and the service's answer is then read as another type. Partial: descriptors stay while no answer brings others for the service. |
| C123 | An action waits only for something that is missing | partial | 4 | The first sentences are proved for all executions, for expressions whose selections are made on names or on calls without a target and whose names hold no backslash. The last sentence needs that an action asks for no body but the one it reads itself (or gives up when the body has ended): without that it is refuted, a store action that asks for fields of both bodies reads only that of the request, and waits for ever with the end of the response held. |
| C124 | The content type decides how a response body is read | proved | 1 | Full for literal field names. Names are compared as the code does, in lower case, which is how Envoy gives them. If actions write the response headers before, the headers as last written decide (C103 has that); if the headers cannot be read the body counts as JSON. |
| C125 | A name means what was stored under it last | proved | 4 | Full for names without a dot other than those the plugin gives a meaning (attributes, body functions); a name no store action of which has ended yet with a true condition may have any value or none (C32: bare names are not waited for). Paths with dots: C32 and the meaning of `known` in Prop_Know.v. |
| C126 | One request cannot take down the others | partial | 4 | Non-interference holds as long as the instance lives; the only callbacks that can end it are the starts of requests whose 500 reply the host refuses or, in dev mode, whose id (client's or generated) with the tracker's name does not parse as CEL. It survives if ids and names have no quote or backslash and the host takes replies. Refuted without that: a client's x-request-id with a quote panics the instance in dev mode and the answers other requests wait for are lost. Not covered: panics inside CEL string functions (C52), memory and time limits of the host. |
| C127 | The response body is searched for every field asked about | partial | 3 | Proved for the fields asked for by calls, by what follows their replies and by the request data (C127_response_fields_are_sought, C127_the_body_is_looked_at). The last sentence is refuted: the condition of a deny (or headers, or fail) action can ask for a field of the response body, but no reader is created for it; the action is never decided although the field is there, and the end of the response is held (C127_fields_of_all_actions_are_sought_refuted). Store actions read the body themselves (C103, C123). |
| C128 | Fields of the request body can be used by calls | partial | 5 | The first sentence is refuted: with a JSON body that is all there and has the field, a call whose message is the documented requestBodyJSON is not made and fails when the body ends (C128_documented_use_refuted). The condition of a deny action fares worse: the whole request is passed on undecided, and the response is held at its end (C128_denials_about_the_request_body_refuted). The second sentence is proved for every state of every request (C128_only_store_actions_read_the_request_body, C128_no_call_without_a_reader, and for every kind of action C128_no_effect_without_a_reader). Calls that are made have the fields they ask for from the body (C104). |
