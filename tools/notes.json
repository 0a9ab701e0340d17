{
 "C03": "The statement is false of the code: only gRPC actions carry dependencies, so a deny, headers, store or fail action marked sequential runs at once. Proved as a refutation; C01 and C02 hold the part that is true. Partial: in the first callback the actions that make no call are evaluated in the order of the configuration.",
 "C22": "Holds for the exact spelling of the header name; the case-insensitive reading is refuted (set and remove compare names as given).",
 "C27": "Holds for paths without backslashes in their segments; refuted in general because the printed form escapes dots but not backslashes.",
 "C28": "Holds for paths without backslashes; refuted in general, two different paths can share one cache entry.",
 "C29": "Holds for addresses with a port and no other colon; refuted for IPv6, the address is cut at the first colon.",
 "C77": "The order among legacy actions and among typed actions holds; refuted for a legacy action following typed ones, which waits only for its immediate predecessor.",
 "C10": "Refuted as stated: the wrappers that enforce failureMode and tracing do not forward the guard flag, so after a termination the calls still on their way keep the pause counter up and the reply's own response headers are paused. Proved instead: with no call on its way a terminated request is never paused, and the answer to the last one resumes a held response; a callback pauses after the termination only if a guard's call was on its way at that moment (or the response body ends while some call is). Missing: release while such calls are still on their way.",
 "C69": "Proved for every request on which the headers callback returns; refuted for requests on which it traps (an identifier expression of dev mode that does not parse), which are counted by no metric.",
 "C21": "Refuted as stated: an action without failure mode (headers, deny, store, fail or an action requeued while waiting) that fails is dropped without completing, so the guards waiting for it are never evaluated while the request and the response headers pass. Proved instead: when processing ends without termination every action completed or failed, so nothing is skipped unless some action failed.",
 "C71": "Refuted as stated: after a failed action the actions waiting for it stay queued, and the end of the response body is paused with nothing in flight. Proved instead: when no action failed, a response paused at its end waits for a call or for an action evaluated in that very callback, and that action, at any depth of its set, then found something missing (`lacks`, C123). Missing: that the second alternative is impossible; the refutation of C123 shows a store action for which it is not. The action added by developer mode is not characterised further.",
 "C13": "Refuted: after an action has been put off once (ORequeued) its failure-mode wrapper is gone, so a deny-mode guard that fails later is dropped silently. C11_never_dropped_at_once shows this is the only way such an action can be dropped.",
 "C14": "Refuted: tasks created for onReply are not wrapped by the failure mode, so a failing reply action of a deny-mode service lets the request through.",
 "C75": "Refuted for calls (terminal is ignored on gRPC actions) and for headers actions whose list is empty. Proved for the others: a terminal action that completes without ending processing had a false condition, or was a headers action with nothing to set.",
 "C34": "The general theorem covers every reply of every history, status up to 32 bits; refuted for larger statuses, which are cut off to 32 bits (u64 as u32).",
 "C30": "Proved: one id throughout. That it is the client's is proved when something used the id before the plugin changed the request headers; refuted otherwise: a headers action that sets x-request-id before the first use replaces it.",
 "C78": "Refuted: the client's x-request-id is pasted unescaped into a CEL expression, so a quote in it either panics or adds headers to the response. Proved for ids without quote and backslash, for every CEL parser that reads plain literals as they are.",
 "C35": "Proved for every host without '$' and names without '$' or a double star, the host being what stands before the first colon. Refuted: an IPv6 host is cut at its first colon and never found; a host containing '$' is given the sets of an exact name it merely ends with.",
 "C36": "Candidates do not depend on case or port of the request host; the whole factory does not depend on the case of configured names.",
 "C37": "Stated for the blueprint selected; refusing and accepting are values of the predicate texts at request headers.",
 "C38": "The log of the whole request is given: 500 reply, errors metric, no pipeline. The callback still returns Continue.",
 "C39": "Proved for wildcards '*.rest'; refuted for '*rest', which covers hosts in the middle of a label. '*.rest' also covers '.rest' (empty label).",
 "C40": "The log of the whole request is given. Refuted: the allowed metric is counted too.",
 "C41": "Any chunks of whole characters; cuts inside a character are the subject of C45, where the claim fails.",
 "C42": "LF and CRLF line endings, data whose first and last line is not empty. With CR endings the final blank line is never recognised, so the last event is lost (refuted).",
 "C43": "As the specification says for blocks whose first and last data line is not empty; otherwise refuted. What the code does in every case is proved as well: empty data lines at the front and one at the end do not count, the rest is joined, and a block of which nothing is left makes no event (C43_which_data_lines_count).",
 "C45": "False: a chunk that ends inside a character is rejected as invalid UTF-8. Partial: cuts between characters are harmless, and a cut stream is accepted only if every cut is between characters.",
 "C46": "Both for store actions and for the token usage task, whatever the chunks (of whole characters).",
 "C47": "For a host whose buffer is at each evaluation a prefix of the body, the case in which the request or response is paused.",
 "C48": "False: the parser of event streams and the token usage task read the whole buffer again at each evaluation. Partial: with a host that shows each piece of the stream once, every byte is parsed once.",
 "C49": "null, booleans, integers in range and strings that look like none of them; strings that look like another scalar change type in JSON bodies (refuted). Token usage keeps all types but null.",
 "C80": "False for JSON bodies read by store actions, which skip as many bytes of each piece as they have seen before. Proved for the token usage task.",
 "C50": "join(split(s)) is s for every separator and every limit but 0, and the pieces are strings again. The converse holds when no part runs into the separator after it; refuted in general (parts 'a' and '' with separator 'aa').",
 "C51": "For indices below 2^32: the deployed target has 32-bit indices, larger and negative ones wrap (refuted). indexOf gives the first and lastIndexOf the last place as byte offset.",
 "C52": "False for strings that are not ASCII (byte offsets, panic on an offset inside a character) and for lastIndexOf with an offset, which counts from the offset. Proved for ASCII strings otherwise.",
 "C31": "Scope proved for every action tree and history: a reply is visible to an action iff a call the action is nested in was answered with it; the innermost wins; replies outside the scope change no step of the action. Refuted: a call whose variable is named auth (or request, source, destination, metadata) is hidden by the attribute map, which overwrites the root name. Partial: expressions see the reply unless the name is one of the seven overwritten roots or a stored root.",
 "C32": "Proved: a collected path whose prefix is reserved and not stored keeps the expression pending; a stored value is seen at its path; at every moment the value in the store at a path is that of the configured store action of the path that ended last with a true condition, and there is none if all that ended had a false one. Refuted: a bare name (no selection) is never collected, so it is not waited for; a collected path that is a proper prefix of the stored path (auth.identity of auth.identity.user) is neither waited for nor seen, it is null.",
 "C33": "Proved for all histories of the pipeline: a path is reserved iff a live task will store it; at the start exactly the paths of the configured store actions; none once the queues are empty.",
 "C56": "Refuted as stated: attributes reached by indexing (request['path']) and selections on the result of a method call are not collected and read as null. Proved for tidy expressions (no selection on a call or literal): every mentioned attribute under request, source, destination, metadata is fetched, or a collected prefix of it is, and bound with the host's value. Identifier names without dots are assumed (clean), which the CEL grammar guarantees.",
 "C57": "Refuted as stated: a comprehension variable or a selection on a map literal makes up attribute paths, which replace the real ones. Proved for tidy expressions: collected means mentioned, and only mentioned paths (and request.url_path for request.grpc) are fetched.",
 "C58": "Refuted as stated: connection.* is fetched but never bound; a collected prefix hides the longer path. Proved for paths no collected or stored prefix of which was decided first.",
 "C59": "Proved for every expression with grammar names, every context and host: pending exactly when something collected is pending or a body field is missing, provided nothing fails.",
 "C81": "Proved for tidy expressions with grammar names; the hypothesis excludes a value stored at the path request itself, which replaces the whole map.",
 "C60": "Proved: a service that has a descriptor has one ever after; the built-in descriptor of a configured built-in service is never replaced once configured, if no answer brought one for that service before. Refuted otherwise: an unasked descriptor that came earlier is used instead of the built-in one, because add_expected keeps an existing entry. Assumes no two descriptor sets seen by the instance share a 64-bit hash.",
 "C61": "Proved for all histories of one instance: a service is requested again only after the fetch that asked for it was answered; a configured service without descriptor and open fetch is requested at the next tick; if the host grants the timer it runs while such a service is configured.",
 "C62": "Proved for all histories, given no hash collision among the descriptor sets seen.",
 "C63": "Proved for a whole wasm instance with any number of interleaved requests: each is the run of the single-request model with the configuration in force when it was created; inserting a rejected configuration changes no request. The HTTP contexts' encode/decode oracles are adversarial, so the effect of descriptors on traffic is not tied to the manager's state here. A callback that panics ends the instance.",
 "C82": "Refuted in three ways: services named only by a rejected configuration, services removed from the configuration, and services nobody asked for. Proved: a requested service was named by some received configuration as a dynamic service and has no built-in descriptor.",
 "C64": "Proved for every history of span ends, exports and clears and every capacity ≥ 1: contents, exports (exactly the newest, then empty), order and single export, and when the loss is reported. A capacity of 0, which the filter never uses, behaves as 1.",
 "C65": "For every schema and value of any depth. The schema is assumed closed, with distinct field names per message and the standard Timestamp. Values that fit are those in range, with all fields without presence set and one member per oneof. Examples show what changes outside that: wrapped JSON-like values are unwrapped, and defaults are added. The float and calendar libraries are oracles; C121 is about the wire format.",
 "C66": "Proved: a number in the field's range arrives unchanged; 64-bit fields and enums reject what they cannot carry. Refuted: 32-bit fields silently wrap a number out of range (`as` casts), every such number is changed, and two distinct map keys can fall together.",
 "C67": "Every message type reachable from the reply type is declared exactly once, with every field at its type, for recursive schemas too; nothing unreachable is declared.",
 "C83": "Proved: a struct that sets at most one member of each oneof has all its declared fields in the request. Refuted: of two members of a oneof only the last declared one is sent; a struct of another message type is accepted and its fields dropped.",
 "C84": "Proved for all values, with map keys only loosely typed. Refuted for map keys: string and boolean keys are accepted in maps with number keys, which the encoder does not expect.",
 "C85": "Proved for pools with the standard well-known types and replies whose timestamps the calendar library represents. Refuted otherwise: one timestamp out of range hides the whole reply.",
 "C86": "Proved for fields that are not unwrapped. Refuted for google.protobuf.Struct, Value and ListValue fields: registered as structs, seen as maps, plain values and lists.",
 "C87": "Proved for messages without wrapped types, undeclared enum numbers, or timestamps and floats outside the other side's range; equality is up to field order and explicit defaults. Refuted for wrapped values, which the field rejects, and for enum numbers the schema does not declare.",
 "C54": "For every text and every surrounding source. CEL's lexer and parser are modelled from the language definition (CelSyn.v), since the parser is a dependency.",
 "C55": "Proved in any logic with associative && and || (two-valued, and two readings of CEL's with errors), for predicates that are expressions not ending in a comment, and blocks whose only predicate is not a conditional when there are several blocks. Refuted otherwise: a conditional in one of several blocks swallows the blocks after it; a trailing comment hides the closing parenthesis.",
 "C88": "Proved for every scope, block list and request data whose expressions are CEL expressions not ending in a comment (the comment case is refuted in C55). A static ratelimit.hits_addend is pasted unescaped and is treated as an expression: refuted. A domain or number of hits in a conditional block is used whether or not its predicates hold: refuted.",
 "C89": "Proved for all data whose evaluated expressions are CEL expressions not ending in a comment. Whether a datum refers to the authorization result is decided by searching its text for \"auth.\": both directions are refuted (oauth.user is sent as text, auth['identity'] is evaluated before authorization).",
 "C15": "Proved for the callback that delivers a readable successful response, for every configuration, nesting depth and history: the reply actions are evaluated in configuration order before anything else, cut short only by one that terminates. 'Each at least once' is about evaluation; a reply action that needs data not yet available is put back and evaluated again later.",
 "C90": "Refuted: a call is marked completed as soon as its response is handled, so an action that must follow it can be sent while a call among its reply actions is still on its way. What holds is C15 (reply actions are evaluated first) and C01 (the call itself is completed). Partial: when the call is sent, all reply actions of an answered call it has to follow have been evaluated.",
 "C91": "Proved for every value whose integers are at most 2^53 in absolute value and whose byte strings are UTF-8, of any depth. Larger integers are read within one part in 2^53 (proved) and can fall together (refuted); bytes that are not UTF-8 are replaced, so different byte strings can be exported as the same bytes (refuted). The wire format is modelled without length limits; a second, independent reader of the wire format is the specification.",
 "C92": "Both directions, for every value.",
 "C93": "Both directions, for values whose integers are at most 2^53 and whose byte strings are text (the rest is refuted in C91).",
 "C94": "Full. The exported bytes are related to the value as in C91; the name is spelled out for paths without a backslash.",
 "C95": "Full, for every header write of every execution. What the dev-mode header contains is in C78.",
 "C96": "Proved for hosts that do not answer 'not available' when a property is set, and so for the deployed host (wasm_host.rs:93-102), without further hypothesis. Refuted for the resolver interface in general: StoreTask takes 'not available' for success.",
 "C97": "Full. The alternative of the dev-mode tracker is only there for encodings that accept a boolean as message; C98 shows that the deployed one does not.",
 "C98": "Full on the model of wasm_host.rs and services/dynamic.rs. The wire format itself is an oracle here; C121 replaces it by a model. 'Fits' is as in C65; C83 says what happens to structs that do not fit.",
 "C99": "Proved for answers of at least one byte (and timestamps in range, C85). Refuted for the empty message, which is how a message with only default values is sent: get_grpc_response takes size 0 for an error (wasm_host.rs:193-207), so the call fails and the request is rejected.",
 "C100": "Of the faithful model the claim holds for every type but maps: attributes typed as maps other than request.headers (source.labels, destination.labels, filter_state, request.context_extensions) and response.headers are never readable, whatever the host answers.",
 "C101": "The specification determines the map up to the order of its entries.",
 "C102": "Full for selections with at least two names, of names the evaluator binds (bindable), free of backslashes; not for the root auth, where nothing stored means null, and not if a store action stores the path request itself. CEL is an oracle; the hypothesis about it is that the value of a selection is found by selecting the fields one after the other.",
 "C103": "Full for literal field names. The JSON libraries (serde_json, the streaming pointer parser) and the CEL interpreter are oracles; the hypothesis about CEL is that the two functions return the entry of their variable (cel.rs:380-434). What is proved includes the code's own shortcomings: see C48 and C80 for streams cut into pieces. Which of the two readings applies follows from the response headers, as host and actions have them at the time (see C124).",
 "C104": "Full for literal field names. That a body has a value only after the host announced it assumes the streaming parser is not done before it has read anything.",
 "C105": "Full for the JSON value parsed by serde_json; the JSON parser and cel's duration parser are oracles. serde_derive's behaviour is modelled from its documentation and generated code, as its source is not in the sandbox. Not modelled: serde_json's nesting limit of 128, and a unit variant written as an object with an empty object in it. A struct may also be written as the list of its fields, and this is part of the specification.",
 "C106": "Full. For the two maps (services, request data) the result is the same set of named entries; their order in the model stands for a HashMap's. That order has no influence either: settings that differ in it make the same instance, so every request is treated alike (C106_same_settings_same_factory, C106_order_never_changes_treatment; the request data is sorted by domain and field, and no two keys have the same).",
 "C107": "Refuted twice: an unknown option (isguard) is ignored and the default used, and a typed action without its predicate becomes a legacy action if it also has a scope. Partial: every action listed is kept, in order, and has its mandatory entries.",
 "C108": "Refuted for limits below a millisecond: proxy-wasm hands the host whole milliseconds, so 900us becomes 0. The rest is full. cel's duration parser is an oracle.",
 "C109": "Proved for rejections by an action that ends processing, and for any reply where all deny actions are terminal. Refuted without that: a deny action that is not terminal sends its reply, and the response to a later call resumes the request.",
 "C110": "Refuted twice: the headers pass while a guard waits for the request body, and while a sequential guard is behind a call that is not guarded. Partial: when the request passes, each action has completed or is held up by one that failed, by an open call that is not a guard's, or by one that was just evaluated and put off.",
 "C111": "Refuted twice: the response to a call that is not guarded resumes a request that was never paused, and the response to the trace export resumes it a second time. Partial: where only guards make calls and the host answers only open calls, every response comes while the host is paused.",
 "C112": "Proved: where spans go, that they go at most once, and that those pending at the end of a pipeline are sent when dev mode (httpHeaderIdentifier) is configured too. Refuted without it: no identifier, no export. Two more refutations: an unknown tracing service is accepted silently, and the name of a service of another type makes it be called with a message that is none, so that all requests are rejected if it denies on failure.",
 "C113": "Refuted three ways: interleaved requests use each other's trace; a request without one joins the trace of another (where entering a span activates its context); and where the host logs more than is recorded (defaultLevel INFO with debug logs, or no defaultLevel with info logs) calls carry no trace at all. Partial: where the host logs no more than is recorded and requests do not interleave their work, calls are in the trace of their request. Proved: requests no span is made for pass on trace, parent and baggage.",
 "C115": "Reply actions that are themselves calls are outside the claim (C97 says what is sent for them); conditions are about the reply only, under a name nothing else stores to.",
 "C116": "Proved for replies whose denial has a status (C116_authorization_replies_decide). Refuted for a denial without one (C116_every_denial_is_sent_refuted): the generated expression selects status.code without has(), evaluation fails, the denial is dropped and the request is passed on. Both rest on speaks_cel: parsing and evaluation of the fragment of CEL the generated texts use are as specified in Prop_Legacy.v; the refutation uses that selecting an absent message field is an error (the interpreter's source was not available; the repository's converters leave unset message fields out of the struct).",
 "C117": "Rests on speaks_cel, the reference semantics of the CEL fragment in Prop_Legacy.v (the report part does not need it).",
 "C118": "C118_header_changes_are_made_or_wait covers both header maps; C118_changes_of_response_headers_are_made adds that waiting ends with the response headers, for hosts that give them from then on. The condition and the headers are expressions about the reply alone (says_of), whose variable has a name of its own (own_name).",
 "C119": "Rests on speaks_cel, the reference semantics of the CEL fragment in Prop_Legacy.v.",
 "C121": "Proto.v models how prost-reflect writes and reads messages; the library is not part of the repository. Proved for schemas with distinct field numbers, messages whose fields are declared and in range, nested at most as deep as the reader goes (100 levels), and without a negative zero in a field that has no presence. Refuted outside: the sign of such a zero is lost, and a message nested deeper is sent but cannot be read. Missing: unknown fields, which these messages do not have. A string that is read is valid UTF-8, or the message is not read at all.",
 "C122": "The last sentence and the two about what is held are proved in full; the request's view of the descriptors (`d_pool`) is tied to the root context's state at the callback at hand by the hypothesis `shared`. That the answer is read by the descriptors of the call is false (refuted): the answer to another fetch can replace them meanwhile, and the service's answer is then read as another type. Partial: descriptors stay while no answer brings others for the service.",
 "C123": "The first sentences are proved for all executions, for expressions whose selections are made on names or on calls without a target and whose names hold no backslash. The last sentence needs that an action asks for no body but the one it reads itself (or gives up when the body has ended): without that it is refuted, a store action that asks for fields of both bodies reads only that of the request, and waits for ever with the end of the response held.",
 "C124": "Full for literal field names. Names are compared as the code does, in lower case, which is how Envoy gives them. If actions write the response headers before, the headers as last written decide (C103 has that); if the headers cannot be read the body counts as JSON.",
 "C125": "Full for names without a dot other than those the plugin gives a meaning (attributes, body functions); a name no store action of which has ended yet with a true condition may have any value or none (C32: bare names are not waited for). Paths with dots: C32 and the meaning of `known` in Prop_Know.v.",
 "C126": "Non-interference holds as long as the instance lives; the only callbacks that can end it are the starts of requests whose 500 reply the host refuses or, in dev mode, whose id (client's or generated) with the tracker's name does not parse as CEL. It survives if ids and names have no quote or backslash and the host takes replies. Refuted without that: a client's x-request-id with a quote panics the instance in dev mode and the answers other requests wait for are lost. Not covered: panics inside CEL string functions (C52), memory and time limits of the host.",
 "C127": "Proved for the fields asked for by calls, by what follows their replies and by the request data (C127_response_fields_are_sought, C127_the_body_is_looked_at). The last sentence is refuted: the condition of a deny (or headers, or fail) action can ask for a field of the response body, but no reader is created for it; the action is never decided although the field is there, and the end of the response is held (C127_fields_of_all_actions_are_sought_refuted). Store actions read the body themselves (C103, C123).",
 "C128": "The first sentence is refuted: with a JSON body that is all there and has the field, a call whose message is the documented requestBodyJSON is not made and fails when the body ends (C128_documented_use_refuted). The condition of a deny action fares worse: the whole request is passed on undecided, and the response is held at its end (C128_denials_about_the_request_body_refuted). The second sentence is proved for every state of every request (C128_only_store_actions_read_the_request_body, C128_no_call_without_a_reader, and for every kind of action C128_no_effect_without_a_reader). Calls that are made have the fields they ask for from the body (C104)."
}