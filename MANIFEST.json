{
 "claims": [
  {
   "property": "C01",
   "status": "proved",
   "theorems": [
    "C01_evaluated_after_what_it_must_follow",
    "C01_no_call_while_awaiting"
   ],
   "note": ""
  },
  {
   "property": "C02",
   "status": "proved",
   "theorems": [
    "C02_plan_is_the_documented_order"
   ],
   "note": ""
  },
  {
   "property": "C03",
   "status": "partial",
   "theorems": [
    "C03_sequential_for_every_kind_refuted",
    "C03_actions_that_make_no_call_are_evaluated_in_order_partial"
   ],
   "note": "The statement is false of the code: only gRPC actions carry dependencies, so a deny, headers, store or fail action marked sequential runs at once. Proved as a refutation; C01 and C02 hold the part that is true. Partial: in the first callback the actions that make no call are evaluated in the order of the configuration."
  },
  {
   "property": "C04",
   "status": "proved",
   "theorems": [
    "C04_nothing_runs_after_termination"
   ],
   "note": ""
  },
  {
   "property": "C05",
   "status": "proved",
   "theorems": [
    "C05_completed_iff_no_work_left"
   ],
   "note": ""
  },
  {
   "property": "C06",
   "status": "proved",
   "theorems": [
    "C06_unknown_token_harmless"
   ],
   "note": ""
  },
  {
   "property": "C07",
   "status": "proved",
   "theorems": [
    "C07_handled_by_its_own_response",
    "C07_handled_once",
    "C07_response_reaches_its_handler"
   ],
   "note": ""
  },
  {
   "property": "C08",
   "status": "proved",
   "theorems": [
    "C08_counter_counts_open_guard_calls"
   ],
   "note": ""
  },
  {
   "property": "C09",
   "status": "proved",
   "theorems": [
    "C09_phase_held_by_guard_calls",
    "C09_every_callback_answers"
   ],
   "note": ""
  },
  {
   "property": "C10",
   "status": "partial",
   "theorems": [
    "C10_terminated_not_held_partial",
    "C10_terminated_not_held_refuted",
    "C10_held_only_by_abandoned_guards_partial"
   ],
   "note": "Refuted as stated: the wrappers that enforce failureMode and tracing do not forward the guard flag, so after a termination the calls still on their way keep the pause counter up and the reply's own response headers are paused. Proved instead: with no call on its way a terminated request is never paused, and the answer to the last one resumes a held response; a callback pauses after the termination only if a guard's call was on its way at that moment (or the response body ends while some call is). Missing: release while such calls are still on their way."
  },
  {
   "property": "C11",
   "status": "proved",
   "theorems": [
    "C11_refused_call_rejects",
    "C11_failed_response_rejects",
    "C11_never_dropped_at_once",
    "C11_evaluation_failure_rejects"
   ],
   "note": ""
  },
  {
   "property": "C12",
   "status": "proved",
   "theorems": [
    "C12_refused_call_completes",
    "C12_failed_response_completes",
    "C12_evaluation_failure_completes"
   ],
   "note": ""
  },
  {
   "property": "C13",
   "status": "partial",
   "theorems": [
    "C13_failure_mode_after_waiting_refuted"
   ],
   "note": "Refuted: after an action has been put off once (ORequeued) its failure-mode wrapper is gone, so a deny-mode guard that fails later is dropped silently. C11_never_dropped_at_once shows this is the only way such an action can be dropped."
  },
  {
   "property": "C14",
   "status": "partial",
   "theorems": [
    "C14_failure_mode_of_reply_actions_refuted"
   ],
   "note": "Refuted: tasks created for onReply are not wrapped by the failure mode, so a failing reply action of a deny-mode service lets the request through."
  },
  {
   "property": "C15",
   "status": "proved",
   "theorems": [
    "C15_reply_actions_run_first_and_in_order"
   ],
   "note": "Proved for the callback that delivers a readable successful response, for every configuration, nesting depth and history: the reply actions are evaluated in configuration order before anything else, cut short only by one that terminates. 'Each at least once' is about evaluation; a reply action that needs data not yet available is put back and evaluated again later."
  },
  {
   "property": "C16",
   "status": "proved",
   "theorems": [
    "C16_later_actions_of_the_pass_ignored",
    "C16_queue_emptied"
   ],
   "note": ""
  },
  {
   "property": "C17",
   "status": "proved",
   "theorems": [
    "C17_at_most_one_reply"
   ],
   "note": ""
  },
  {
   "property": "C18",
   "status": "proved",
   "theorems": [
    "C18_no_lost_wakeup"
   ],
   "note": ""
  },
  {
   "property": "C19",
   "status": "proved",
   "theorems": [
    "C19_teardown_once_and_last"
   ],
   "note": ""
  },
  {
   "property": "C20",
   "status": "proved",
   "theorems": [
    "C20_at_most_one_call",
    "C20_ids_distinct"
   ],
   "note": ""
  },
  {
   "property": "C21",
   "status": "partial",
   "theorems": [
    "C21_none_skipped_unless_failed_partial",
    "C21_none_skipped_refuted"
   ],
   "note": "Refuted as stated: an action without failure mode (headers, deny, store, fail or an action requeued while waiting) that fails is dropped without completing, so the guards waiting for it are never evaluated while the request and the response headers pass. Proved instead: when processing ends without termination every action completed or failed, so nothing is skipped unless some action failed."
  },
  {
   "property": "C22",
   "status": "partial",
   "theorems": [
    "C22_set_replaces_exactly_that_header",
    "C22_remove_removes_exactly_that_header",
    "C22_case_insensitive_refuted"
   ],
   "note": "Holds for the exact spelling of the header name; the case-insensitive reading is refuted (set and remove compare names as given)."
  },
  {
   "property": "C23",
   "status": "proved",
   "theorems": [
    "C23_set_all_preserves_unrelated"
   ],
   "note": ""
  },
  {
   "property": "C24",
   "status": "proved",
   "theorems": [
    "C24_read_your_writes",
    "C24_read_your_header_writes",
    "C24_failed_write_changes_nothing",
    "C24_failed_header_write_changes_nothing"
   ],
   "note": ""
  },
  {
   "property": "C25",
   "status": "proved",
   "theorems": [
    "C25_reads_are_stable"
   ],
   "note": ""
  },
  {
   "property": "C26",
   "status": "proved",
   "theorems": [
    "C26_unavailable_reads_are_retried",
    "C26_populate_retries"
   ],
   "note": ""
  },
  {
   "property": "C27",
   "status": "partial",
   "theorems": [
    "C27_path_round_trip_partial",
    "C27_path_round_trip_refuted",
    "C27_text_round_trip_partial",
    "C27_what_a_text_stands_for"
   ],
   "note": "Holds for paths without backslashes in their segments; refuted in general because the printed form escapes dots but not backslashes."
  },
  {
   "property": "C28",
   "status": "partial",
   "theorems": [
    "C28_distinct_paths_distinct_entries_partial",
    "C28_shared_entry_refuted"
   ],
   "note": "Holds for paths without backslashes; refuted in general, two different paths can share one cache entry."
  },
  {
   "property": "C29",
   "status": "partial",
   "theorems": [
    "C29_remote_address_partial",
    "C29_remote_address_refuted"
   ],
   "note": "Holds for addresses with a port and no other colon; refuted for IPv6, the address is cut at the first colon."
  },
  {
   "property": "C30",
   "status": "partial",
   "theorems": [
    "C30_one_request_id",
    "C30_client_id_partial",
    "C30_client_id_refuted"
   ],
   "note": "Proved: one id throughout. That it is the client's is proved when something used the id before the plugin changed the request headers; refuted otherwise: a headers action that sets x-request-id before the first use replaces it."
  },
  {
   "property": "C31",
   "status": "partial",
   "theorems": [
    "C31_reply_is_visible_exactly_to_its_scope",
    "C31_innermost_reply_wins",
    "C31_other_replies_make_no_difference",
    "C31_expressions_see_the_reply_partial",
    "C31_reply_named_auth_is_hidden_refuted"
   ],
   "note": "Scope proved for every action tree and history: a reply is visible to an action iff a call the action is nested in was answered with it; the innermost wins; replies outside the scope change no step of the action. Refuted: a call whose variable is named auth (or request, source, destination, metadata) is hidden by the attribute map, which overwrites the root name. Partial: expressions see the reply unless the name is one of the seven overwritten roots or a stored root."
  },
  {
   "property": "C32",
   "status": "partial",
   "theorems": [
    "C32_unstored_paths_are_waited_for_partial",
    "C32_stored_values_are_seen_partial",
    "C32_values_stored_under_a_name_are_seen_partial",
    "C32_name_alone_is_not_waited_for_refuted",
    "C32_whole_of_a_stored_part_is_null_refuted",
    "C32_stored_values_come_from_store_actions_partial"
   ],
   "note": "Proved: a collected path whose prefix is reserved and not stored keeps the expression pending; a stored value is seen at its path; at every moment the value in the store at a path is that of the configured store action of the path that ended last with a true condition, and there is none if all that ended had a false one. Refuted: a bare name (no selection) is never collected, so it is not waited for; a collected path that is a proper prefix of the stored path (auth.identity of auth.identity.user) is neither waited for nor seen, it is null."
  },
  {
   "property": "C33",
   "status": "proved",
   "theorems": [
    "C33_reserved_iff_a_live_store_action",
    "C33_reserved_at_the_start",
    "C33_all_released_at_the_end"
   ],
   "note": "Proved for all histories of the pipeline: a path is reserved iff a live task will store it; at the start exactly the paths of the configured store actions; none once the queues are empty."
  },
  {
   "property": "C34",
   "status": "partial",
   "theorems": [
    "C34_replies_say_what_was_configured",
    "C34_status_is_cut_off_refuted"
   ],
   "note": "The general theorem covers every reply of every history, status up to 32 bits; refuted for larger statuses, which are cut off to 32 bits (u64 as u32)."
  },
  {
   "property": "C35",
   "status": "partial",
   "theorems": [
    "C35_candidates_are_those_of_the_best_name_partial",
    "C35_ipv6_host_refuted",
    "C35_marker_in_host_refuted"
   ],
   "note": "Proved for every host without '$' and names without '$' or a double star, the host being what stands before the first colon. Refuted: an IPv6 host is cut at its first colon and never found; a host containing '$' is given the sets of an exact name it merely ends with."
  },
  {
   "property": "C36",
   "status": "proved",
   "theorems": [
    "C36_case_and_port_do_not_matter",
    "C36_configured_case_does_not_matter"
   ],
   "note": "Candidates do not depend on case or port of the request host; the whole factory does not depend on the case of configured names."
  },
  {
   "property": "C37",
   "status": "proved",
   "theorems": [
    "C37_first_candidate_whose_predicates_hold"
   ],
   "note": "Stated for the blueprint selected; refusing and accepting are values of the predicate texts at request headers."
  },
  {
   "property": "C38",
   "status": "proved",
   "theorems": [
    "C38_undecided_predicates_fail_closed"
   ],
   "note": "The log of the whole request is given: 500 reply, errors metric, no pipeline. The callback still returns Continue."
  },
  {
   "property": "C39",
   "status": "partial",
   "theorems": [
    "C39_wildcards_cover_whole_labels_partial",
    "C39_wildcard_inside_label_refuted"
   ],
   "note": "Proved for wildcards '*.rest'; refuted for '*rest', which covers hosts in the middle of a label. '*.rest' also covers '.rest' (empty label)."
  },
  {
   "property": "C40",
   "status": "partial",
   "theorems": [
    "C40_other_hosts_are_unaffected_partial",
    "C40_allowed_metric_refuted"
   ],
   "note": "The log of the whole request is given. Refuted: the allowed metric is counted too."
  },
  {
   "property": "C41",
   "status": "partial",
   "theorems": [
    "C41_chunking_does_not_matter_partial"
   ],
   "note": "Any chunks of whole characters; cuts inside a character are the subject of C45, where the claim fails."
  },
  {
   "property": "C42",
   "status": "partial",
   "theorems": [
    "C42_serialised_events_are_parsed_back_partial",
    "C42_cr_line_endings_refuted"
   ],
   "note": "LF and CRLF line endings, data whose first and last line is not empty. With CR endings the final blank line is never recognised, so the last event is lost (refuted)."
  },
  {
   "property": "C43",
   "status": "partial",
   "theorems": [
    "C43_events_are_those_of_the_blocks_partial",
    "C43_empty_data_lines_refuted",
    "C43_which_data_lines_count"
   ],
   "note": "As the specification says for blocks whose first and last data line is not empty; otherwise refuted. What the code does in every case is proved as well: empty data lines at the front and one at the end do not count, the rest is joined, and a block of which nothing is left makes no event (C43_which_data_lines_count)."
  },
  {
   "property": "C44",
   "status": "proved",
   "theorems": [
    "C44_parsing_succeeds_and_keeps_an_unfinished_line"
   ],
   "note": ""
  },
  {
   "property": "C45",
   "status": "partial",
   "theorems": [
    "C45_cuts_between_characters_partial",
    "C45_cut_inside_a_character_refuted"
   ],
   "note": "False: a chunk that ends inside a character is rejected as invalid UTF-8. Partial: cuts between characters are harmless, and a cut stream is accepted only if every cut is between characters."
  },
  {
   "property": "C46",
   "status": "proved",
   "theorems": [
    "C46_fields_come_from_the_penultimate_event",
    "C46_usage_comes_from_the_penultimate_event"
   ],
   "note": "Both for store actions and for the token usage task, whatever the chunks (of whole characters)."
  },
  {
   "property": "C47",
   "status": "proved",
   "theorems": [
    "C47_every_byte_is_parsed_once"
   ],
   "note": "For a host whose buffer is at each evaluation a prefix of the body, the case in which the request or response is paused."
  },
  {
   "property": "C48",
   "status": "partial",
   "theorems": [
    "C48_event_streams_are_parsed_twice_refuted",
    "C48_usage_is_parsed_twice_refuted",
    "C48_streams_shown_in_pieces_are_parsed_once_partial"
   ],
   "note": "False: the parser of event streams and the token usage task read the whole buffer again at each evaluation. Partial: with a host that shows each piece of the stream once, every byte is parsed once."
  },
  {
   "property": "C49",
   "status": "partial",
   "theorems": [
    "C49_strings_change_type_refuted",
    "C49_scalars_keep_their_type_partial",
    "C49_usage_keeps_types"
   ],
   "note": "null, booleans, integers in range and strings that look like none of them; strings that look like another scalar change type in JSON bodies (refuted). Token usage keeps all types but null."
  },
  {
   "property": "C50",
   "status": "partial",
   "theorems": [
    "C50_join_of_split",
    "C50_join_without_separator",
    "C50_split_of_join_partial",
    "C50_split_of_join_refuted",
    "C50_pieces_are_valid_strings"
   ],
   "note": "join(split(s)) is s for every separator and every limit but 0, and the pieces are strings again. The converse holds when no part runs into the separator after it; refuted in general (parts 'a' and '' with separator 'aa')."
  },
  {
   "property": "C51",
   "status": "partial",
   "theorems": [
    "C51_substring_and_charAt_partial",
    "C51_indices_wrap_refuted",
    "C51_indexOf_is_first_and_lastIndexOf_last"
   ],
   "note": "For indices below 2^32: the deployed target has 32-bit indices, larger and negative ones wrap (refuted). indexOf gives the first and lastIndexOf the last place as byte offset."
  },
  {
   "property": "C52",
   "status": "partial",
   "theorems": [
    "C52_offsets_are_bytes_refuted",
    "C52_panics_refuted",
    "C52_lastIndexOf_offset_refuted",
    "C52_ascii_positions_partial"
   ],
   "note": "False for strings that are not ASCII (byte offsets, panic on an offset inside a character) and for lastIndexOf with an offset, which counts from the offset. Proved for ASCII strings otherwise."
  },
  {
   "property": "C53",
   "status": "proved",
   "theorems": [
    "C53_replace_replaces_all",
    "C53_replace_replaces_at_most",
    "C53_replace_without_occurrence",
    "C53_case_mapping",
    "C53_trim_removes_surrounding_space"
   ],
   "note": ""
  },
  {
   "property": "C54",
   "status": "proved",
   "theorems": [
    "C54_escaped_text_is_one_literal",
    "C54_literal_has_the_text_as_value"
   ],
   "note": "For every text and every surrounding source. CEL's lexer and parser are modelled from the language definition (CelSyn.v), since the parser is a dependency."
  },
  {
   "property": "C55",
   "status": "partial",
   "theorems": [
    "C55_action_predicates_are_joined_partial",
    "C55_ratelimit_predicates_are_combined_partial",
    "C55_conditional_swallows_blocks_refuted",
    "C55_comment_swallows_predicates_refuted"
   ],
   "note": "Proved in any logic with associative && and || (two-valued, and two readings of CEL's with errors), for predicates that are expressions not ending in a comment, and blocks whose only predicate is not a conditional when there are several blocks. Refuted otherwise: a conditional in one of several blocks swallows the blocks after it; a trailing comment hides the closing parenthesis."
  },
  {
   "property": "C56",
   "status": "partial",
   "theorems": [
    "C56_mentioned_attributes_are_seen_partial",
    "C56_indexed_attributes_refuted",
    "C56_selection_on_method_result_refuted"
   ],
   "note": "Refuted as stated: attributes reached by indexing (request['path']) and selections on the result of a method call are not collected and read as null. Proved for tidy expressions (no selection on a call or literal): every mentioned attribute under request, source, destination, metadata is fetched, or a collected prefix of it is, and bound with the host's value. Identifier names without dots are assumed (clean), which the CEL grammar guarantees."
  },
  {
   "property": "C57",
   "status": "partial",
   "theorems": [
    "C57_collected_attributes_are_mentioned_partial",
    "C57_only_mentioned_attributes_are_fetched_partial",
    "C57_invented_attribute_refuted",
    "C57_selection_leaks_to_next_operand_refuted"
   ],
   "note": "Refuted as stated: a comprehension variable or a selection on a map literal makes up attribute paths, which replace the real ones. Proved for tidy expressions: collected means mentioned, and only mentioned paths (and request.url_path for request.grpc) are fetched."
  },
  {
   "property": "C58",
   "status": "partial",
   "theorems": [
    "C58_collected_attributes_are_bound_partial",
    "C58_connection_is_never_bound_refuted",
    "C58_shorter_attribute_hides_longer_refuted"
   ],
   "note": "Refuted as stated: connection.* is fetched but never bound; a collected prefix hides the longer path. Proved for paths no collected or stored prefix of which was decided first."
  },
  {
   "property": "C59",
   "status": "proved",
   "theorems": [
    "C59_waiting_expressions_are_pending"
   ],
   "note": "Proved for every expression with grammar names, every context and host: pending exactly when something collected is pending or a body field is missing, provided nothing fails."
  },
  {
   "property": "C60",
   "status": "partial",
   "theorems": [
    "C60_resolved_services_stay_resolved",
    "C60_builtin_descriptors_stay_partial",
    "C60_builtin_replaced_before_use_refuted"
   ],
   "note": "Proved: a service that has a descriptor has one ever after; the built-in descriptor of a configured built-in service is never replaced once configured, if no answer brought one for that service before. Refuted otherwise: an unasked descriptor that came earlier is used instead of the built-in one, because add_expected keeps an existing entry. Assumes no two descriptor sets seen by the instance share a 64-bit hash."
  },
  {
   "property": "C61",
   "status": "proved",
   "theorems": [
    "C61_one_fetch_in_flight",
    "C61_unresolved_services_are_requested_again",
    "C61_timer_runs",
    "C61_refused_timer_is_asked_for_again"
   ],
   "note": "Proved for all histories of one instance: a service is requested again only after the fetch that asked for it was answered; a configured service without descriptor and open fetch is requested at the next tick; if the host grants the timer it runs while such a service is configured."
  },
  {
   "property": "C62",
   "status": "proved",
   "theorems": [
    "C62_descriptors_come_from_answers"
   ],
   "note": "Proved for all histories, given no hash collision among the descriptor sets seen."
  },
  {
   "property": "C63",
   "status": "proved",
   "theorems": [
    "C63_requests_keep_their_configuration",
    "C63_rejected_configuration_changes_no_request",
    "C63_requests_are_served_by_a_compiled_configuration"
   ],
   "note": "Proved for a whole wasm instance with any number of interleaved requests: each is the run of the single-request model with the configuration in force when it was created; inserting a rejected configuration changes no request. The HTTP contexts' encode/decode oracles are adversarial, so the effect of descriptors on traffic is not tied to the manager's state here. A callback that panics ends the instance."
  },
  {
   "property": "C64",
   "status": "proved",
   "theorems": [
    "C64_buffer_keeps_the_newest",
    "C64_export_takes_all",
    "C64_no_span_exported_twice",
    "C64_distinct_spans_exported_once",
    "C64_loss_is_reported_once",
    "C64_capacity_zero_is_one"
   ],
   "note": "Proved for every history of span ends, exports and clears and every capacity \u2265 1: contents, exports (exactly the newest, then empty), order and single export, and when the loss is reported. A capacity of 0, which the filter never uses, behaves as 1."
  },
  {
   "property": "C65",
   "status": "proved",
   "theorems": [
    "C65_values_survive",
    "C65_messages_survive"
   ],
   "note": "For every schema and value of any depth. The schema is assumed closed, with distinct field names per message and the standard Timestamp. Values that fit are those in range, with all fields without presence set and one member per oneof. Examples show what changes outside that: wrapped JSON-like values are unwrapped, and defaults are added. The float and calendar libraries are oracles; C121 is about the wire format."
  },
  {
   "property": "C66",
   "status": "partial",
   "theorems": [
    "C66_numbers_in_range_arrive_partial",
    "C66_wide_fields_and_enums_reject_partial",
    "C66_narrow_fields_change_numbers_refuted",
    "C66_every_number_out_of_range_is_changed",
    "C66_map_keys_fall_together_refuted"
   ],
   "note": "Proved: a number in the field's range arrives unchanged; 64-bit fields and enums reject what they cannot carry. Refuted: 32-bit fields silently wrap a number out of range (`as` casts), every such number is changed, and two distinct map keys can fall together."
  },
  {
   "property": "C67",
   "status": "proved",
   "theorems": [
    "C67_reachable_types_are_declared"
   ],
   "note": "Every message type reachable from the reply type is declared exactly once, with every field at its type, for recursive schemas too; nothing unreachable is declared."
  },
  {
   "property": "C68",
   "status": "proved",
   "theorems": [
    "C68_header_lists_converted_faithfully",
    "C68_result_determined"
   ],
   "note": ""
  },
  {
   "property": "C69",
   "status": "partial",
   "theorems": [
    "C69_counted_once_partial",
    "C69_counted_once_refuted"
   ],
   "note": "Proved for every request on which the headers callback returns; refuted for requests on which it traps (an identifier expression of dev mode that does not parse), which are counted by no metric."
  },
  {
   "property": "C70",
   "status": "proved",
   "theorems": [
    "C70_without_a_pipeline_everything_passes",
    "C70_no_pipeline_from_the_start"
   ],
   "note": ""
  },
  {
   "property": "C71",
   "status": "partial",
   "theorems": [
    "C71_held_for_what_is_missing_partial",
    "C71_response_released_partial",
    "C71_response_released_refuted"
   ],
   "note": "Refuted as stated: after a failed action the actions waiting for it stay queued, and the end of the response body is paused with nothing in flight. Proved instead: when no action failed, a response paused at its end waits for a call or for an action evaluated in that very callback, and that action, at any depth of its set, then found something missing (`lacks`, C123). Missing: that the second alternative is impossible; the refutation of C123 shows a store action for which it is not. The action added by developer mode is not characterised further."
  },
  {
   "property": "C72",
   "status": "proved",
   "theorems": [
    "C72_pausing_ends_with_a_resume"
   ],
   "note": ""
  },
  {
   "property": "C73",
   "status": "proved",
   "theorems": [
    "C73_u64_decoded_exactly",
    "C73_i64_decoded_exactly",
    "C73_bool_decoded",
    "C73_attribute_value"
   ],
   "note": ""
  },
  {
   "property": "C74",
   "status": "proved",
   "theorems": [
    "C74_key_split",
    "C74_key_split_text"
   ],
   "note": ""
  },
  {
   "property": "C75",
   "status": "partial",
   "theorems": [
    "C75_terminal_actions_end_processing_partial",
    "C75_terminal_call_refuted",
    "C75_terminal_empty_headers_refuted"
   ],
   "note": "Refuted for calls (terminal is ignored on gRPC actions) and for headers actions whose list is empty. Proved for the others: a terminal action that completes without ending processing had a false condition, or was a headers action with nothing to set."
  },
  {
   "property": "C76",
   "status": "proved",
   "theorems": [
    "C76_legacy_actions_in_turn",
    "C76_one_call_at_a_time"
   ],
   "note": ""
  },
  {
   "property": "C77",
   "status": "partial",
   "theorems": [
    "C77_mixed_sets_partial",
    "C77_legacy_waits_for_all_refuted"
   ],
   "note": "The order among legacy actions and among typed actions holds; refuted for a legacy action following typed ones, which waits only for its immediate predecessor."
  },
  {
   "property": "C78",
   "status": "partial",
   "theorems": [
    "C78_dev_mode_header_partial",
    "C78_client_injects_a_header_refuted",
    "C78_quote_panics_refuted"
   ],
   "note": "Refuted: the client's x-request-id is pasted unescaped into a CEL expression, so a quote in it either panics or adds headers to the response. Proved for ids without quote and backslash, for every CEL parser that reads plain literals as they are."
  },
  {
   "property": "C79",
   "status": "proved",
   "theorems": [
    "C79_what_ends_processing"
   ],
   "note": ""
  },
  {
   "property": "C80",
   "status": "partial",
   "theorems": [
    "C80_pieces_of_json_bodies_refuted",
    "C80_usage_is_found_in_pieces_partial"
   ],
   "note": "False for JSON bodies read by store actions, which skip as many bytes of each piece as they have seen before. Proved for the token usage task."
  },
  {
   "property": "C81",
   "status": "proved",
   "theorems": [
    "C81_grpc_service_and_method",
    "C81_grpc_service_and_method_deployed"
   ],
   "note": "Proved for tidy expressions with grammar names; the hypothesis excludes a value stored at the path request itself, which replaces the whole map."
  },
  {
   "property": "C82",
   "status": "partial",
   "theorems": [
    "C82_only_configured_services_are_requested_partial",
    "C82_rejected_service_is_requested_refuted",
    "C82_removed_service_is_requested_refuted",
    "C82_unrequested_service_is_resolved_refuted"
   ],
   "note": "Refuted in three ways: services named only by a rejected configuration, services removed from the configuration, and services nobody asked for. Proved: a requested service was named by some received configuration as a dynamic service and has no built-in descriptor."
  },
  {
   "property": "C83",
   "status": "partial",
   "theorems": [
    "C83_declared_fields_arrive_partial",
    "C83_oneof_member_is_dropped_refuted",
    "C83_other_type_is_accepted_refuted"
   ],
   "note": "Proved: a struct that sets at most one member of each oneof has all its declared fields in the request. Refuted: of two members of a oneof only the last declared one is sent; a struct of another message type is accepted and its fields dropped."
  },
  {
   "property": "C84",
   "status": "partial",
   "theorems": [
    "C84_converted_values_conform_partial",
    "C84_string_key_in_number_map_refuted"
   ],
   "note": "Proved for all values, with map keys only loosely typed. Refuted for map keys: string and boolean keys are accepted in maps with number keys, which the encoder does not expect."
  },
  {
   "property": "C85",
   "status": "partial",
   "theorems": [
    "C85_replies_can_be_read_partial",
    "C85_bad_timestamp_hides_reply_refuted"
   ],
   "note": "Proved for pools with the standard well-known types and replies whose timestamps the calendar library represents. Refuted otherwise: one timestamp out of range hides the whole reply."
  },
  {
   "property": "C86",
   "status": "partial",
   "theorems": [
    "C86_fields_have_their_registered_type_partial",
    "C86_wrapped_field_has_another_type_refuted"
   ],
   "note": "Proved for fields that are not unwrapped. Refuted for google.protobuf.Struct, Value and ListValue fields: registered as structs, seen as maps, plain values and lists."
  },
  {
   "property": "C87",
   "status": "partial",
   "theorems": [
    "C87_what_was_read_can_be_sent_partial",
    "C87_wrapped_value_is_rejected_refuted",
    "C87_new_enum_number_is_rejected_refuted"
   ],
   "note": "Proved for messages without wrapped types, undeclared enum numbers, or timestamps and floats outside the other side's range; equality is up to field order and explicit defaults. Refuted for wrapped values, which the field rejects, and for enum numbers the schema does not declare."
  },
  {
   "property": "C88",
   "status": "partial",
   "theorems": [
    "C88_ratelimit_request_is_as_documented_partial",
    "C88_ratelimit_actions_send_it_partial",
    "C88_static_hits_are_expressions_refuted",
    "C88_conditional_domain_is_unconditional_refuted"
   ],
   "note": "Proved for every scope, block list and request data whose expressions are CEL expressions not ending in a comment (the comment case is refuted in C55). A static ratelimit.hits_addend is pasted unescaped and is treated as an expression: refuted. A domain or number of hits in a conditional block is used whether or not its predicates hold: refuted."
  },
  {
   "property": "C89",
   "status": "partial",
   "theorems": [
    "C89_auth_request_is_as_documented_partial",
    "C89_mentioning_auth_is_textual_refuted"
   ],
   "note": "Proved for all data whose evaluated expressions are CEL expressions not ending in a comment. Whether a datum refers to the authorization result is decided by searching its text for \"auth.\": both directions are refuted (oauth.user is sent as text, auth['identity'] is evaluated before authorization)."
  },
  {
   "property": "C90",
   "status": "partial",
   "theorems": [
    "C90_reply_actions_are_evaluated_before_partial",
    "C90_sequential_call_overtakes_reply_call_refuted"
   ],
   "note": "Refuted: a call is marked completed as soon as its response is handled, so an action that must follow it can be sent while a call among its reply actions is still on its way. What holds is C15 (reply actions are evaluated first) and C01 (the call itself is completed). Partial: when the call is sent, all reply actions of an answered call it has to follow have been evaluated."
  },
  {
   "property": "C91",
   "status": "partial",
   "theorems": [
    "C91_exported_values_read_back_partial",
    "C91_exports_are_documents",
    "C91_integers_are_close_partial",
    "C91_large_integers_fall_together_refuted",
    "C91_byte_strings_fall_together_refuted"
   ],
   "note": "Proved for every value whose integers are at most 2^53 in absolute value and whose byte strings are UTF-8, of any depth. Larger integers are read within one part in 2^53 (proved) and can fall together (refuted); bytes that are not UTF-8 are replaced, so different byte strings can be exported as the same bytes (refuted). The wire format is modelled without length limits; a second, independent reader of the wire format is the specification."
  },
  {
   "property": "C92",
   "status": "proved",
   "theorems": [
    "C92_only_foreign_values_are_refused"
   ],
   "note": "Both directions, for every value."
  },
  {
   "property": "C93",
   "status": "proved",
   "theorems": [
    "C93_same_bytes_iff_same_content"
   ],
   "note": "Both directions, for values whose integers are at most 2^53 and whose byte strings are text (the rest is refuted in C91)."
  },
  {
   "property": "C94",
   "status": "proved",
   "theorems": [
    "C94_properties_come_from_store_actions"
   ],
   "note": "Full. The exported bytes are related to the value as in C91; the name is spelled out for paths without a backslash."
  },
  {
   "property": "C95",
   "status": "proved",
   "theorems": [
    "C95_header_changes_add_up"
   ],
   "note": "Full, for every header write of every execution. What the dev-mode header contains is in C78."
  },
  {
   "property": "C96",
   "status": "partial",
   "theorems": [
    "C96_completed_actions_did_their_job_deployed",
    "C96_completed_actions_did_their_job_partial",
    "C96_unavailable_exports_complete_refuted"
   ],
   "note": "Proved for hosts that do not answer 'not available' when a property is set, and so for the deployed host (wasm_host.rs:93-102), without further hypothesis. Refuted for the resolver interface in general: StoreTask takes 'not available' for success."
  },
  {
   "property": "C97",
   "status": "proved",
   "theorems": [
    "C97_calls_say_what_was_configured"
   ],
   "note": "Full. The alternative of the dev-mode tracker is only there for encodings that accept a boolean as message; C98 shows that the deployed one does not."
  },
  {
   "property": "C98",
   "status": "proved",
   "theorems": [
    "C98_services_get_the_value"
   ],
   "note": "Full on the model of wasm_host.rs and services/dynamic.rs. The wire format itself is an oracle here; C121 replaces it by a model. 'Fits' is as in C65; C83 says what happens to structs that do not fit."
  },
  {
   "property": "C99",
   "status": "partial",
   "theorems": [
    "C99_answers_are_used_partial",
    "C99_empty_answer_rejects_request_refuted"
   ],
   "note": "Proved for answers of at least one byte (and timestamps in range, C85). Refuted for the empty message, which is how a message with only default values is sent: get_grpc_response takes size 0 for an error (wasm_host.rs:193-207), so the call fails and the request is rejected."
  },
  {
   "property": "C100",
   "status": "partial",
   "theorems": [
    "C100_value_of_an_attribute_partial",
    "C100_value_determined",
    "C100_maps_refuted",
    "C100_response_headers_refuted",
    "C100_documented_attributes"
   ],
   "note": "Of the faithful model the claim holds for every type but maps: attributes typed as maps other than request.headers (source.labels, destination.labels, filter_state, request.context_extensions) and response.headers are never readable, whatever the host answers."
  },
  {
   "property": "C101",
   "status": "proved",
   "theorems": [
    "C101_repeated_headers_joined",
    "C101_map_determined"
   ],
   "note": "The specification determines the map up to the order of its entries."
  },
  {
   "property": "C102",
   "status": "proved",
   "theorems": [
    "C102_selections_mean_what_was_supplied",
    "C102_exported_selections"
   ],
   "note": "Full for selections with at least two names, of names the evaluator binds (bindable), free of backslashes; not for the root auth, where nothing stored means null, and not if a store action stores the path request itself. CEL is an oracle; the hypothesis about it is that the value of a selection is found by selecting the fields one after the other."
  },
  {
   "property": "C103",
   "status": "proved",
   "theorems": [
    "C103_body_fields_are_the_bodys",
    "C103_exported_body_fields",
    "C103_exported_body_fields_deployed"
   ],
   "note": "Full for literal field names. The JSON libraries (serde_json, the streaming pointer parser) and the CEL interpreter are oracles; the hypothesis about CEL is that the two functions return the entry of their variable (cel.rs:380-434). What is proved includes the code's own shortcomings: see C48 and C80 for streams cut into pieces. Which of the two readings applies follows from the response headers, as host and actions have them at the time (see C124)."
  },
  {
   "property": "C104",
   "status": "proved",
   "theorems": [
    "C104_calls_wait_for_the_body",
    "C104_exports_wait_for_the_body",
    "C104_header_changes_wait_for_the_body",
    "C104_denials_wait_for_the_body",
    "C104_not_before_the_body"
   ],
   "note": "Full for literal field names. That a body has a value only after the host announced it assumes the streaming parser is not done before it has read anything."
  },
  {
   "property": "C105",
   "status": "proved",
   "theorems": [
    "C105_configuration_means_what_is_written",
    "C105_requests_are_served_by_a_written_configuration"
   ],
   "note": "Full for the JSON value parsed by serde_json; the JSON parser and cel's duration parser are oracles. serde_derive's behaviour is modelled from its documentation and generated code, as its source is not in the sandbox. Not modelled: serde_json's nesting limit of 128, and a unit variant written as an object with an empty object in it. A struct may also be written as the list of its fields, and this is part of the specification."
  },
  {
   "property": "C106",
   "status": "proved",
   "theorems": [
    "C106_same_settings_same_factory",
    "C106_order_never_changes_treatment",
    "C106_order_of_entries_is_irrelevant",
    "C106_other_entries_of_an_action_are_ignored",
    "C106_other_entries_of_the_configuration_are_ignored"
   ],
   "note": "Full. For the two maps (services, request data) the result is the same set of named entries; their order in the model stands for a HashMap's. That order has no influence either: settings that differ in it make the same instance, so every request is treated alike (C106_same_settings_same_factory, C106_order_never_changes_treatment; the request data is sorted by domain and field, and no two keys have the same)."
  },
  {
   "property": "C107",
   "status": "partial",
   "theorems": [
    "C107_mandatory_entries_partial",
    "C107_unknown_options_are_rejected_refuted",
    "C107_incomplete_typed_action_is_rejected_refuted"
   ],
   "note": "Refuted twice: an unknown option (isguard) is ignored and the default used, and a typed action without its predicate becomes a legacy action if it also has a scope. Partial: every action listed is kept, in order, and has its mandatory entries."
  },
  {
   "property": "C108",
   "status": "partial",
   "theorems": [
    "C108_time_limits_are_as_written",
    "C108_negative_time_limits_are_rejected",
    "C108_positive_time_limits_stay_positive_refuted"
   ],
   "note": "Refuted for limits below a millisecond: proxy-wasm hands the host whole milliseconds, so 900us becomes 0. The rest is full. cel's duration parser is an oracle."
  },
  {
   "property": "C109",
   "status": "partial",
   "theorems": [
    "C109_rejected_request_is_not_resumed",
    "C109_answered_request_is_not_resumed",
    "C109_answered_request_is_not_resumed_refuted"
   ],
   "note": "Proved for rejections by an action that ends processing, and for any reply where all deny actions are terminal. Refuted without that: a deny action that is not terminal sends its reply, and the response to a later call resumes the request."
  },
  {
   "property": "C110",
   "status": "partial",
   "theorems": [
    "C110_guards_decide_before_the_request_passes_partial",
    "C110_guard_waiting_for_the_body_is_passed_refuted",
    "C110_guard_behind_another_call_is_passed_refuted"
   ],
   "note": "Refuted twice: the headers pass while a guard waits for the request body, and while a sequential guard is behind a call that is not guarded. Partial: when the request passes, each action has completed or is held up by one that failed, by an open call that is not a guard's, or by one that was just evaluated and put off."
  },
  {
   "property": "C111",
   "status": "partial",
   "theorems": [
    "C111_only_what_waits_is_resumed_partial",
    "C111_unguarded_call_resumes_what_does_not_wait_refuted",
    "C111_trace_export_resumes_twice_refuted"
   ],
   "note": "Refuted twice: the response to a call that is not guarded resumes a request that was never paused, and the response to the trace export resumes it a second time. Partial: where only guards make calls and the host answers only open calls, every response comes while the host is paused."
  },
  {
   "property": "C112",
   "status": "partial",
   "theorems": [
    "C112_traces_go_to_the_tracing_service",
    "C112_spans_of_every_request_are_sent_refuted",
    "C112_unknown_tracing_service_is_accepted_refuted",
    "C112_tracing_to_another_service_rejects_requests_refuted"
   ],
   "note": "Proved: where spans go, that they go at most once, and that those pending at the end of a pipeline are sent when dev mode (httpHeaderIdentifier) is configured too. Refuted without it: no identifier, no export. Two more refutations: an unknown tracing service is accepted silently, and the name of a service of another type makes it be called with a message that is none, so that all requests are rejected if it denies on failure."
  },
  {
   "property": "C113",
   "status": "partial",
   "theorems": [
    "C113_calls_are_in_the_trace_of_their_request_partial",
    "C113_calls_have_the_baggage_of_their_request_partial",
    "C113_calls_are_in_the_trace_of_their_request_refuted",
    "C113_requests_without_a_trace_join_another_refuted",
    "C113_verbose_logs_drop_the_trace_refuted",
    "C113_untraced_requests_pass_the_context_on"
   ],
   "note": "Refuted three ways: interleaved requests use each other's trace; a request without one joins the trace of another (where entering a span activates its context); and where the host logs more than is recorded (defaultLevel INFO with debug logs, or no defaultLevel with info logs) calls carry no trace at all. Partial: where the host logs no more than is recorded and requests do not interleave their work, calls are in the trace of their request. Proved: requests no span is made for pass on trace, parent and baggage."
  },
  {
   "property": "C114",
   "status": "proved",
   "theorems": [
    "C114_headers_are_changed_only_when_there",
    "C114_response_changes_wait_for_the_response"
   ],
   "note": ""
  },
  {
   "property": "C115",
   "status": "proved",
   "theorems": [
    "C115_replies_lead_to_their_verdict"
   ],
   "note": "Reply actions that are themselves calls are outside the claim (C97 says what is sent for them); conditions are about the reply only, under a name nothing else stores to."
  },
  {
   "property": "C116",
   "status": "partial",
   "theorems": [
    "C116_authorization_replies_decide",
    "C116_every_denial_is_sent_refuted"
   ],
   "note": "Proved for replies whose denial has a status (C116_authorization_replies_decide). Refuted for a denial without one (C116_every_denial_is_sent_refuted): the generated expression selects status.code without has(), evaluation fails, the denial is dropped and the request is passed on. Both rest on speaks_cel: parsing and evaluation of the fragment of CEL the generated texts use are as specified in Prop_Legacy.v; the refutation uses that selecting an absent message field is an error (the interpreter's source was not available; the repository's converters leave unset message fields out of the struct)."
  },
  {
   "property": "C117",
   "status": "proved",
   "theorems": [
    "C117_rate_limit_replies_decide",
    "C117_report_replies_change_nothing"
   ],
   "note": "Rests on speaks_cel, the reference semantics of the CEL fragment in Prop_Legacy.v (the report part does not need it)."
  },
  {
   "property": "C118",
   "status": "proved",
   "theorems": [
    "C118_header_changes_are_made_or_wait",
    "C118_changes_of_response_headers_are_made"
   ],
   "note": "C118_header_changes_are_made_or_wait covers both header maps; C118_changes_of_response_headers_are_made adds that waiting ends with the response headers, for hosts that give them from then on. The condition and the headers are expressions about the reply alone (says_of), whose variable has a name of its own (own_name)."
  },
  {
   "property": "C119",
   "status": "proved",
   "theorems": [
    "C119_rate_limit_headers_reach_the_response"
   ],
   "note": "Rests on speaks_cel, the reference semantics of the CEL fragment in Prop_Legacy.v."
  },
  {
   "property": "C120",
   "status": "proved",
   "theorems": [
    "C120_outcomes_are_the_hosts"
   ],
   "note": ""
  },
  {
   "property": "C121",
   "status": "partial",
   "theorems": [
    "C121_messages_survive_the_wire_partial",
    "C121_read_as_the_same_value_partial",
    "C121_same_bytes_same_value_partial",
    "C121_strings_read_are_text",
    "C121_sign_of_zero_refuted",
    "C121_deep_message_refuted",
    "C121_services_read_the_value_partial",
    "C121_answers_are_what_was_sent_partial"
   ],
   "note": "Proto.v models how prost-reflect writes and reads messages; the library is not part of the repository. Proved for schemas with distinct field numbers, messages whose fields are declared and in range, nested at most as deep as the reader goes (100 levels), and without a negative zero in a field that has no presence. Refuted outside: the sign of such a zero is lost, and a message nested deeper is sent but cannot be read. Missing: unknown fields, which these messages do not have. A string that is read is valid UTF-8, or the message is not read at all."
  },
  {
   "property": "C122",
   "status": "partial",
   "theorems": [
    "C122_calls_follow_the_descriptors_at_hand",
    "C122_answers_follow_the_descriptors_at_hand",
    "C122_descriptors_stay_until_replaced_partial",
    "C122_answered_services_can_be_called",
    "C122_answer_read_by_other_descriptors_refuted"
   ],
   "note": "The last sentence and the two about what is held are proved in full; the request's view of the descriptors (`d_pool`) is tied to the root context's state at the callback at hand by the hypothesis `shared`. That the answer is read by the descriptors of the call is false (refuted): the answer to another fetch can replace them meanwhile, and the service's answer is then read as another type. Partial: descriptors stay while no answer brings others for the service."
  },
  {
   "property": "C123",
   "status": "partial",
   "theorems": [
    "C123_waits_only_for_what_is_missing",
    "C123_settled_once_all_is_there",
    "C123_settled_once_all_is_there_refuted",
    "C123_settled_once_all_is_there_deployed"
   ],
   "note": "The first sentences are proved for all executions, for expressions whose selections are made on names or on calls without a target and whose names hold no backslash. The last sentence needs that an action asks for no body but the one it reads itself (or gives up when the body has ended): without that it is refuted, a store action that asks for fields of both bodies reads only that of the request, and waits for ever with the end of the response held."
  },
  {
   "property": "C124",
   "status": "proved",
   "theorems": [
    "C124_the_content_type_decides"
   ],
   "note": "Full for literal field names. Names are compared as the code does, in lower case, which is how Envoy gives them. If actions write the response headers before, the headers as last written decide (C103 has that); if the headers cannot be read the body counts as JSON."
  },
  {
   "property": "C125",
   "status": "proved",
   "theorems": [
    "C125_calls_use_what_was_stored_last",
    "C125_header_changes_use_what_was_stored_last",
    "C125_denials_use_what_was_stored_last",
    "C125_exports_are_what_was_stored_last"
   ],
   "note": "Full for names without a dot other than those the plugin gives a meaning (attributes, body functions); a name no store action of which has ended yet with a true condition may have any value or none (C32: bare names are not waited for). Paths with dots: C32 and the meaning of `known` in Prop_Know.v."
  },
  {
   "property": "C126",
   "status": "partial",
   "theorems": [
    "C126_requests_do_not_see_each_other",
    "C126_what_ends_an_instance",
    "C126_instances_survive_requests_partial",
    "C126_quoted_id_ends_all_requests_refuted"
   ],
   "note": "Non-interference holds as long as the instance lives; the only callbacks that can end it are the starts of requests whose 500 reply the host refuses or, in dev mode, whose id (client's or generated) with the tracker's name does not parse as CEL. It survives if ids and names have no quote or backslash and the host takes replies. Refuted without that: a client's x-request-id with a quote panics the instance in dev mode and the answers other requests wait for are lost. Not covered: panics inside CEL string functions (C52), memory and time limits of the host."
  },
  {
   "property": "C127",
   "status": "partial",
   "theorems": [
    "C127_response_fields_are_sought",
    "C127_the_body_is_looked_at",
    "C127_fields_of_all_actions_are_sought_refuted"
   ],
   "note": "Proved for the fields asked for by calls, by what follows their replies and by the request data (C127_response_fields_are_sought, C127_the_body_is_looked_at). The last sentence is refuted: the condition of a deny (or headers, or fail) action can ask for a field of the response body, but no reader is created for it; the action is never decided although the field is there, and the end of the response is held (C127_fields_of_all_actions_are_sought_refuted). Store actions read the body themselves (C103, C123)."
  },
  {
   "property": "C128",
   "status": "partial",
   "theorems": [
    "C128_only_store_actions_read_the_request_body",
    "C128_no_call_without_a_reader",
    "C128_no_effect_without_a_reader",
    "C128_documented_use_refuted",
    "C128_denials_about_the_request_body_refuted"
   ],
   "note": "The first sentence is refuted: with a JSON body that is all there and has the field, a call whose message is the documented requestBodyJSON is not made and fails when the body ends (C128_documented_use_refuted). The condition of a deny action fares worse: the whole request is passed on undecided, and the response is held at its end (C128_denials_about_the_request_body_refuted). The second sentence is proved for every state of every request (C128_only_store_actions_read_the_request_body, C128_no_call_without_a_reader, and for every kind of action C128_no_effect_without_a_reader). Calls that are made have the fields they ask for from the body (C104)."
  }
 ]
}