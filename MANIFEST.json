{
 "claims": [
  {
   "property": "C01",
   "status": "proved",
   "theorems": [
    "C01_encode_total",
    "C01_roundtrip",
    "C01_out_of_range_raises",
    "C01_every_group_is_one_integer"
   ],
   "note": "Negative integers are not representable in the model; the code only sends counters, lengths, sizes and ports."
  },
  {
   "property": "C02",
   "status": "proved",
   "theorems": [
    "C02_fields_parse_back",
    "C02_string_parse_back",
    "C02_string_encodable"
   ],
   "note": "UTF-8 codec modelled octet by octet."
  },
  {
   "property": "C03",
   "status": "proved",
   "theorems": [
    "C03_channel_fragmentation",
    "C03_publisher_fragmentation",
    "C03_channel_delivers_all",
    "C03_publisher_delivers_all",
    "C03_channel_cut_anywhere",
    "C03_publisher_cut_anywhere"
   ],
   "note": "For any byte stream (fragmentation) and any cut of a written stream."
  },
  {
   "property": "C04",
   "status": "proved",
   "theorems": [
    "C04_one_byte",
    "C04_opcodes_distinct",
    "C04_enumeration_complete"
   ],
   "note": ""
  },
  {
   "property": "C05",
   "status": "proved",
   "theorems": [
    "C05_written_message_reads_back",
    "C05_large_enough",
    "C05_rest_untouched"
   ],
   "note": "Premise pickle_ok: loads(dumps o) = o. Objects are compared by equality in the model; two equal objects are assumed to pickle alike."
  },
  {
   "property": "C06",
   "status": "proved",
   "theorems": [
    "C06_undersized_raises",
    "C06_any_failure_leaves_buffer_unchanged",
    "C06_uninitialised_raises"
   ],
   "note": "to_mem. The unchecked _write used directly by broadcast is covered by C08."
  },
  {
   "property": "C07",
   "status": "proved",
   "theorems": [
    "C07_growth_preserves_messages",
    "C07_last_messages_readable"
   ],
   "note": "Publisher side, for states reached by successful broadcasts. The subscriber-side switch to the new segment is part of C15."
  },
  {
   "property": "C08",
   "status": "partial",
   "theorems": [
    "C08_any_size_refuted",
    "C08_window_raises",
    "C08_outside_window_succeeds",
    "C08_failed_write_blocks_growth_refuted"
   ],
   "note": "Property is false of the code (C08_any_size_refuted): sizes in (buf_size-16, buf_size] raise ValueError. Proved: exactly those sizes fail."
  },
  {
   "property": "C09",
   "status": "proved",
   "theorems": [
    "C09_layout",
    "C09_write_one_slot"
   ],
   "note": ""
  },
  {
   "property": "C10",
   "status": "proved",
   "theorems": [
    "C10_lives_as_long_as_leases",
    "C10_lease_set",
    "C10_late_attach_refuted"
   ],
   "note": "Availability after any history equals 'never without a holder'. C10_late_attach_refuted: a lease taken after the last release does not revive the segment."
  },
  {
   "property": "C11",
   "status": "proved",
   "theorems": [
    "C11_available_iff_nobody_holds",
    "C11_all_clear_iff_nothing_held",
    "C11_pressure_is_number_of_held_buffers",
    "C11_release_of_unheld_changes_nothing"
   ],
   "note": "Client ids are naturals. Refinement to the set of (client, buffer) pairs computed from the history."
  },
  {
   "property": "C12",
   "status": "proved",
   "theorems": [
    "C12_lookup_is_latest_or_miss",
    "C12_never_another_message",
    "C12_one_message_per_slot",
    "C12_release_absent_fails_unchanged",
    "C12_release_present_succeeds",
    "C12_memory_released_once",
    "C12_clear_releases_everything"
   ],
   "note": "Includes the lifetime of the memoryviews handed to the cache (released exactly once)."
  },
  {
   "property": "C13",
   "status": "proved",
   "theorems": [
    "C13_never_over_capacity",
    "C13_queue_is_newest_and_nothing_lost",
    "C13_put_drops_oldest_exactly_when_full",
    "C13_get_takes_oldest",
    "C13_unregister_removes_only_its_own"
   ],
   "note": "Any integer maxsize: as in asyncio, maxsize <= 0 means unbounded. Also covers the queue clean-up when a subscriber leaves one publisher."
  },
  {
   "property": "C14",
   "status": "proved",
   "theorems": [
    "C14_exactly_one_transport",
    "C14_local_delivery_at_most_once"
   ],
   "note": "str.lower modelled on ASCII letters."
  },
  {
   "property": "C15",
   "status": "partial",
   "theorems": [
    "C15_reading_is_never_overwritten_partial",
    "C15_pending_message_is_never_overwritten_partial",
    "C15_received_is_what_was_sent",
    "C15_disconnect_while_reading_refuted",
    "C15_rejoin_while_reading_refuted"
   ],
   "note": "Proved for subscribers that stay registered on a working connection and do not register again while holding a message. False otherwise: C15_disconnect_while_reading_refuted, C15_rejoin_while_reading_refuted."
  },
  {
   "property": "C16",
   "status": "partial",
   "theorems": [
    "C16_every_message_once_in_order_partial",
    "C16_in_order_unless_a_receive_failed_partial",
    "C16_next_receive_delivers",
    "C16_no_message_left_behind",
    "C16_receive_during_switch_refuted"
   ],
   "note": "Proved when no receive falls into a segment switch or hits a lost connection; false otherwise (C16_receive_during_switch_refuted: CacheMiss loses the message and leaks its buffer)."
  },
  {
   "property": "C17",
   "status": "proved",
   "theorems": [
    "C17_received_is_an_increasing_subsequence",
    "C17_every_message_accounted_for",
    "C17_missed_messages_are_released",
    "C17_keeps_only_what_it_holds",
    "C17_queue_is_bounded"
   ],
   "note": "For schedules in which no subscriber registers again while holding an old message (reach)."
  },
  {
   "property": "C18",
   "status": "proved",
   "theorems": [
    "C18_at_most_num_buffers_outstanding",
    "C18_broadcast_waits_iff_buffer_taken",
    "C18_waiting_broadcast_goes_on_iff_free",
    "C18_held_message_blocks_its_buffer",
    "C18_taken_buffer_is_unanswered"
   ],
   "note": "C18_taken_buffer_is_unanswered needs a schedule without the incidents of C16, C21 and C23 (reachw)."
  },
  {
   "property": "C19",
   "status": "partial",
   "theorems": [
    "C19_sync_is_a_barrier_partial",
    "C19_no_publication_while_paused_partial",
    "C19_broadcast_waits_while_paused_and_resumes",
    "C19_waiting_broadcast_ignores_pause_refuted",
    "C19_resume_then_pause_leaks_one_refuted",
    "C19_sync_during_broadcast_refuted"
   ],
   "note": "Barrier proved when no broadcast is half written, silence proved when none is past its running check; the three refuted theorems show each restriction is needed."
  },
  {
   "property": "C20",
   "status": "partial",
   "theorems": [
    "C20_consumption_ends_with_every_buffer_free_partial"
   ],
   "note": "Proved from every state reached without the incidents of C16, C21, C23 (reachw) and outside a segment switch: at most `bound` consumption steps, and when none is left everything is free."
  },
  {
   "property": "C21",
   "status": "partial",
   "theorems": [
    "C21_leaving_with_nothing_held_partial",
    "C21_last_leaver_frees_everything_partial",
    "C21_leaving_with_unread_message_refuted"
   ],
   "note": "False of the code (C21_leaving_with_unread_message_refuted). Proved: leaving with nothing held, and the last subscriber of a process."
  },
  {
   "property": "C22",
   "status": "proved",
   "theorems": [
    "C22_process_can_be_lost_at_any_time",
    "C22_loss_while_sending_is_not_charged",
    "C22_lost_process_gives_back_exactly_its_buffers",
    "C22_loss_leaves_others_alone"
   ],
   "note": ""
  },
  {
   "property": "C23",
   "status": "partial",
   "theorems": [
    "C23_answered_is_not_charged_partial",
    "C23_ack_before_lease_refuted"
   ],
   "note": "Proved when the wait for drain ends before the acknowledgement is handled (prompt); C23_ack_before_lease_refuted otherwise."
  },
  {
   "property": "C24",
   "status": "proved",
   "theorems": [
    "C24_always_acyclic",
    "C24_refused_iff_it_would_make_a_cycle"
   ],
   "note": "Over every history of connect, disconnect and owner removal; refusal characterised exactly."
  },
  {
   "property": "C25",
   "status": "proved",
   "theorems": [
    "C25_edge_iff_owned",
    "C25_reported_owners",
    "C25_connect_reports_the_change",
    "C25_disconnect_reports_the_change",
    "C25_drop_owner_reports_the_change"
   ],
   "note": "Ownership is read off the request/answer history, not off the code's owner table."
  },
  {
   "property": "C26",
   "status": "proved",
   "theorems": [
    "C26_refused_connect_changes_nothing"
   ],
   "note": "The whole graph object is unchanged, so all later states agree."
  },
  {
   "property": "C27",
   "status": "proved",
   "theorems": [
    "C27_downstream_is_reachability",
    "C27_upstream_is_reachability",
    "C27_search_always_ends"
   ],
   "note": "Includes termination of the search loop, also on the trial graph that may be cyclic."
  },
  {
   "property": "C28",
   "status": "proved",
   "theorems": [
    "C28_no_stale_topics"
   ],
   "note": ""
  },
  {
   "property": "C29",
   "status": "proved",
   "theorems": [
    "C29_owners_are_those_who_connected_and_kept_it",
    "C29_closing_removes_exactly_its_own"
   ],
   "note": "Premise well_keyed: each registered component's metadata key is its address (that is how backend.py:614-619 builds it)."
  },
  {
   "property": "C30",
   "status": "partial",
   "theorems": [
    "C30_wired_one_command_at_a_time_partial",
    "C30_wired_without_session_edges_partial",
    "C30_wired_unless_overtaken_partial",
    "C30_nobody_is_missed",
    "C30_notifications_finish",
    "C30_session_updates_overtake_refuted"
   ],
   "note": "Proved: when commands are handled one at a time, or without session edge commands, or unless a notification overtakes another, once the server is quiet every live subscriber's last update names exactly its upstream publishers; nobody reached by a changed edge is missed; notifications always finish. Missing: the unrestricted claim, which C30_session_updates_overtake_refuted disproves: two session edge commands can send a subscriber their updates out of order, because the list is computed before the write lock is taken."
  },
  {
   "property": "C31",
   "status": "proved",
   "theorems": [
    "C31_retained_is_the_latest_suffix",
    "C31_query_returns_the_later_events"
   ],
   "note": "Generic in the event contents; the settings and topology logs are the same code."
  },
  {
   "property": "C32",
   "status": "proved",
   "theorems": [
    "C32_ordered_without_repetition",
    "C32_complete_if_it_keeps_up",
    "C32_only_the_oldest_undelivered_is_lost"
   ],
   "note": "Stream order, completeness while the queue has room, and what exactly is lost otherwise."
  },
  {
   "property": "C33",
   "status": "proved",
   "theorems": [
    "C33_one_process_per_unit",
    "C33_register_accepted_iff_free",
    "C33_ownership_update_accepted_iff_free"
   ],
   "note": ""
  },
  {
   "property": "C34",
   "status": "proved",
   "theorems": [
    "C34_one_session_per_component",
    "C34_register_accepted_iff_no_collision"
   ],
   "note": ""
  },
  {
   "property": "C35",
   "status": "proved",
   "theorems": [
    "C35_exactly_one_justified_answer",
    "C35_a_waiting_request_can_be_answered"
   ],
   "note": "Exactly one answer for every issued request, each answer justified; liveness as: a waiting request can always be answered by steps of the server alone."
  },
  {
   "property": "C36",
   "status": "proved",
   "theorems": [
    "C36_snapshot_is_the_latest_report_or_the_declared_value"
   ],
   "note": "Premise well_keyed as in C29."
  },
  {
   "property": "C37",
   "status": "partial",
   "theorems": [
    "C37_events_explain_the_snapshot_partial",
    "C37_removal_is_not_logged_refuted",
    "C37_initial_event_hides_a_report_refuted"
   ],
   "note": "The claim fails of the code in two ways, both proved as _refuted: a removal emits no event, and registering a component already reported by a process logs an INITIAL_SETTINGS event although the snapshot keeps the reported value. The _partial theorem excludes both."
  },
  {
   "property": "C38",
   "status": "partial",
   "theorems": [
    "C38_original_untouched",
    "C38_only_that_field_partial",
    "C38_non_init_field_reset_refuted",
    "C38_missing_path_refused",
    "C38_empty_path_refused",
    "C38_non_field_refused"
   ],
   "note": "Full claim proved for ordinary objects (mappings, pydantic models, plain objects, dataclasses whose fields are all arguments of __init__). Missing: dataclasses with init=False fields, where it is false (C38_non_init_field_reset_refuted). That nothing existing is modified is proved without any premise."
  },
  {
   "property": "C39",
   "status": "proved",
   "theorems": [
    "C39_sanitized_is_plain",
    "C39_plain_is_unchanged",
    "C39_sanitizing_twice",
    "C39_structured_is_plain_dict",
    "C39_representation",
    "C39_fields"
   ],
   "note": "int/float/str subclasses (IntEnum, numpy scalars) count as plain numbers and strings, as the code passes them through."
  },
  {
   "property": "C40",
   "status": "proved",
   "theorems": [
    "C40_totals_and_windows",
    "C40_publications_traced",
    "C40_waits_traced",
    "C40_one_of_every_n",
    "C40_receptions_traced"
   ],
   "note": "For all histories of calls on the registry of one process, publishers and subscribers alike."
  },
  {
   "property": "C41",
   "status": "proved",
   "theorems": [
    "C41_batch_removes_what_it_returns",
    "C41_batch_takes_the_earliest",
    "C41_expired_control_leaves_nothing"
   ],
   "note": "For all histories; time order under a clock that does not go back."
  },
  {
   "property": "C42",
   "status": "proved",
   "theorems": [
    "C42_in_order_at_most_once",
    "C42_each_poll",
    "C42_complete_if_it_keeps_up",
    "C42_only_what_was_asked_for"
   ],
   "note": "Buffers hold at least one sample; process ids are handed out once (the server draws them)."
  },
  {
   "property": "C43",
   "status": "proved",
   "theorems": [
    "C43_each_unit_in_one_process",
    "C43_units_share_a_process_iff_same_group",
    "C43_setup_places_every_unit",
    "C43_process_decorator_is_ignored_refuted",
    "C43_forced_process_may_be_empty_refuted"
   ],
   "note": "Exactly one process per unit, no process empty, units share a process iff same nearest process root, also at the level of setup with relay units. Findings: the process decorator has no effect (its attribute is set on the function, looked up on the unit); force_single_process on a system without units makes an empty process."
  },
  {
   "property": "C44",
   "status": "proved",
   "theorems": [
    "C44_addresses_unique",
    "C44_crawl_visits_each_once",
    "C44_stream_address",
    "C44_all_addresses_differ",
    "C44_slash_in_a_name_refuted"
   ],
   "note": "For uniquely named members with names without '/'. The names are not checked: C44_slash_in_a_name_refuted shows two components with one address otherwise."
  },
  {
   "property": "C45",
   "status": "proved",
   "theorems": [
    "C45_relays_keep_connectivity",
    "C45_streams_are_connected_as_given",
    "C45_relays_hide_a_cycle_refuted",
    "C45_parallel_boundaries_deliver_twice_refuted",
    "C45_second_setup_fails_refuted"
   ],
   "note": "For well-named systems in which no stream is called like a relay unit and no connection names a stream of a relay unit. Findings: relays hide cycles from the graph server, parallel boundaries deliver a message twice, the same components cannot be set up twice."
  },
  {
   "property": "C46",
   "status": "proved",
   "theorems": [
    "C46_pruning_keeps_connectivity",
    "C46_pruned_graph_is_closed",
    "C46_cyclic_graph_refuted"
   ],
   "note": "For acyclic graphs, which is what the graph server keeps (C25). C46_cyclic_graph_refuted shows that acyclicity is needed."
  },
  {
   "property": "C47",
   "status": "proved",
   "theorems": [
    "C47_first_bindable_port",
    "C47_fixed_port",
    "C47_port_zero_refuted"
   ],
   "note": "For a search that does not start at port 0; C47_port_zero_refuted shows that from port 0 the operating system may hand out the reserved port."
  },
  {
   "property": "C48",
   "status": "proved",
   "theorems": [
    "C48_parses_exactly_addresses",
    "C48_stream_refuses_other_text",
    "C48_print_parse",
    "C48_print_injective",
    "C48_parse_print",
    "C48_stream_round_trip",
    "C48_ipv6_refuted"
   ],
   "note": "C48_ipv6_refuted shows that the condition on the host is needed."
  },
  {
   "property": "C49",
   "status": "partial",
   "theorems": [
    "C49_users_share_one_channel_partial",
    "C49_closed_when_the_last_user_leaves_partial",
    "C49_registering_joins_the_running_channel_partial",
    "C49_overlapping_registrations_refuted"
   ],
   "note": "Proved when no registration begins while another one for the same publisher waits for its channel. C49_overlapping_registrations_refuted shows that overlapping registrations make two channels, the first of which can then never be left or closed."
  },
  {
   "property": "C50",
   "status": "proved",
   "theorems": [
    "C50_forwards_what_arrives_while_open",
    "C50_obeys_the_last_command",
    "C50_default_state_after_n_messages",
    "C50_changes_only_by_command_or_count",
    "C50_after_zero_messages_refuted",
    "C50_open_gate_passes_the_first_n"
   ],
   "note": "Gate: what is forwarded, commands and the default after n messages. Refuted at default_after = 0."
  },
  {
   "property": "C51",
   "status": "proved",
   "theorems": [
    "C51_lossless_and_in_order",
    "C51_bounded",
    "C51_leaky_drops_only_the_oldest",
    "C51_leaky_drops_only_when_full",
    "C51_progress",
    "C51_leaky_drops_new_messages_refuted"
   ],
   "note": "MessageQueue. The documentation says a full leaky queue drops new messages; the code drops the oldest (refuted)."
  },
  {
   "property": "C52",
   "status": "proved",
   "theorems": [
    "C52_chunks",
    "C52_chunks_join_again",
    "C52_no_samples_refuted"
   ],
   "note": "ChunkProps.v: joining the chunks gives the data (as plain arrays and with AxisArray.concatenate), every chunk but the last is full, every sample keeps its value and its time. Exact rational arithmetic. Finding C52_no_samples_refuted: an array without samples raises IndexError."
  },
  {
   "property": "C53",
   "status": "partial",
   "theorems": [
    "C53_isel_selects",
    "C53_values_partial",
    "C53_values_exactly_if_consecutive",
    "C53_cut_and_concatenate",
    "C53_index_of_value",
    "C53_index_is_nearest",
    "C53_sel_is_isel",
    "C53_step_keeps_the_gain_refuted",
    "C53_positions_keep_the_gain_refuted",
    "C53_unlabelled_dimension_restarts_refuted",
    "C53_coordinates_refuted",
    "C53_empty_selection_refuted",
    "C53_start_before_the_axis_refuted"
   ],
   "note": "SelectProps.v: isel returns exactly the selected elements; consecutive slices joined give the array and its axis; values are kept exactly if the selected positions are consecutive; index inverts value; sel of values is isel of positions. Refuted for stepped slices and position lists (gain is kept), dimensions without an axis (restart at 0), coordinate axes (always raise), empty selections, and sel before the first sample (wraps round)."
  },
  {
   "property": "C54",
   "status": "proved",
   "theorems": [
    "C54_results_are_well_formed",
    "C54_transpose",
    "C54_transpose_serves",
    "C54_iterate",
    "C54_iterate_from_the_end_refuted",
    "C54_modify",
    "C54_modify_serves",
    "C54_modify_takes_another_axis_refuted"
   ],
   "note": "DimsProps.v, ModifyProps.v: every result has one distinct name for each dimension; transpose, iter_over_axis and ModifyAxis move sizes, elements and axes with the names; exactly when they raise. Findings: iter_over_axis(-1) raises; an axis stored under a name that is not a dimension can replace a renamed one."
  },
  {
   "property": "C55",
   "status": "partial",
   "theorems": [
    "C55_strided_windows",
    "C55_generic_windows",
    "C55_too_long",
    "C55_versions_agree_partial",
    "C55_empty_windows_refuted"
   ],
   "note": "WindowProps.v: both versions return the windows of the specification for every step >= 1 (the generic one for length >= 1), so they agree. Refuted for length 0: the generic version ignores the step."
  },
  {
   "property": "C56",
   "status": "proved",
   "theorems": [
    "C56_terminates_exactly_at_the_total"
   ],
   "note": "TerminateOnTotal; the message that reaches the total is the one that ends the system."
  },
  {
   "property": "C57",
   "status": "partial",
   "theorems": [
    "C57_log_holds_what_was_received",
    "C57_buffered_log_partial",
    "C57_buffered_message_before_start_refuted",
    "C57_buffered_message_before_stop_refuted",
    "C57_replays_the_queued_files",
    "C57_status_tells_the_progress",
    "C57_stopped_replay_is_cut_short",
    "C57_replay_goes_on",
    "C57_replay_yields_what_was_received",
    "C57_stop_does_not_rewind_refuted",
    "C57_resume_then_pause_leaks_one_refuted"
   ],
   "note": "Immediate writing and replaying proved; with buffered writing the claim is false when files are opened or closed while messages are buffered (refuted), proved when they are not. That reading back a line gives what was written is a premise here; C69 proves it for the codec."
  },
  {
   "property": "C58",
   "status": "proved",
   "theorems": [
    "C58_sleep_between_zero_and_a_period",
    "C58_on_time_callers_keep_the_period",
    "C58_average_rate_not_exceeded",
    "C58_catching_up_is_bounded"
   ],
   "note": "Exact rational times, no rounding."
  },
  {
   "property": "C59",
   "status": "partial",
   "theorems": [
    "C59_runner_releases_everything_partial",
    "C59_runner_refuses",
    "C59_runner_runs_at_most_once",
    "C59_runner_never_closes_twice",
    "C59_interrupted_cleanup_leaks_refuted",
    "C59_failed_process_start_leaks_refuted",
    "C59_start_without_units_refuted",
    "C59_sync_opens_and_closes_at_most_once",
    "C59_sync_use_raises_unless_open",
    "C59_sync_shutdown_is_final",
    "C59_shutdown_in_a_callback_partial",
    "C59_shutdown_in_a_callback_of_spin_once_refuted",
    "C59_failed_enter_refuted",
    "C59_shutdown_is_not_lost",
    "C59_simultaneous_shutdowns_release_twice_refuted"
   ],
   "note": "Runs at most once, nothing closed twice, refused calls change nothing, shutdown final and not lost: proved. Release of everything proved except when a process cannot be started, leaving the graph context fails or an interrupt arrives during cleanup (refuted for the first and last); release at most once fails for simultaneous shutdowns (refuted)."
  },
  {
   "property": "C60",
   "status": "proved",
   "theorems": [
    "C60_graph_changes_are_logged",
    "C60_process_changes_are_logged"
   ],
   "note": ""
  },
  {
   "property": "C61",
   "status": "partial",
   "theorems": [
    "C61_updates_reach_the_unit",
    "C61_updates_accumulate_partial",
    "C61_slow_unit_loses_an_update_refuted",
    "C61_full_message_undone_refuted"
   ],
   "note": "The accumulation claim is false of the code in two ways, both proved as _refuted: current_settings goes back to an older value when the unit receives an older message, and a patch computed before waiting for the publisher undoes a full message received meanwhile. Proved for runs in which the unit has caught up when an update is handled."
  },
  {
   "property": "C62",
   "status": "partial",
   "theorems": [
    "C62_outcome_is_the_answer_partial",
    "C62_late_answer_refuted"
   ],
   "note": "Proved as long as no command has timed out; after a time-out the late answer is taken for the next command's (C62_late_answer_refuted)."
  },
  {
   "property": "C63",
   "status": "partial",
   "theorems": [
    "C63_compactification_is_a_quotient",
    "C63_low_components_are_merged_partial",
    "C63_shallow_unit_is_left_over_refuted"
   ],
   "note": "The quotient half is proved for every graph and level. The merging half is proved for levels 1 and 2 and for uniform graphs; C63_shallow_unit_is_left_over_refuted shows that it fails at level 3 (line 142 adds level + 1 instead of 1)."
  },
  {
   "property": "C64",
   "status": "proved",
   "theorems": [
    "C64_terminates_exactly_on_timeout"
   ],
   "note": "Exact rational times."
  },
  {
   "property": "C65",
   "status": "partial",
   "theorems": [
    "C65_as2d",
    "C65_as2d_vector",
    "C65_shape2d_partial",
    "C65_view2d_writes_back",
    "C65_view2d_round_trip",
    "C65_shape2d_from_the_end_refuted",
    "C65_vector_from_the_end_refuted"
   ],
   "note": "View2dProps.v: elements, shape and write-back of 2D views. Refuted for axes counted from the end: shape2d multiplies in the axis itself; the view of a vector is a row."
  },
  {
   "property": "C66",
   "status": "proved",
   "theorems": [
    "C66_every_message_to_every_handler",
    "C66_held_until_all_are_done",
    "C66_yields_are_published",
    "C66_keeps_going",
    "C66_closes_when_all_are_done",
    "C66_normal_termination_is_announced",
    "C66_strict_failure_stops_the_others_refuted"
   ],
   "note": "Proved for non-strict and strict shutdown; with strict shutdown an exception of one handler stops the others (C66_strict_failure_stops_the_others_refuted)."
  },
  {
   "property": "C67",
   "status": "partial",
   "theorems": [
    "C67_all_set_up_before_any_runs",
    "C67_failed_setup_runs_nothing",
    "C67_all_start",
    "C67_failed_setup_hangs_refuted"
   ],
   "note": "Proved except that all processes end after a failed setup: C67_failed_setup_hangs_refuted shows that they wait at the stop barrier for ever."
  },
  {
   "property": "C68",
   "status": "partial",
   "theorems": [
    "C68_units_are_shut_down_after_all_tasks_partial",
    "C68_every_unit_is_shut_down_once",
    "C68_every_pipeline_ends_partial",
    "C68_termination_cancels_every_task",
    "C68_main_fails_while_tasks_run_refuted",
    "C68_main_failure_is_not_announced_refuted",
    "C68_interrupt_of_one_process_refuted",
    "C68_threads_hide_termination_refuted",
    "C68_failing_shutdown_skips_the_rest_refuted",
    "C68_killed_process_hangs_the_rest_refuted"
   ],
   "note": "Exactly-once shutdown and cancellation are proved for all histories; the order and the end of the pipeline for histories without failing main functions, interrupts or crashes (and, for the end, failing setup or shutdown) and with a free worker for the monitor. Six refutations show that each of these conditions is needed."
  },
  {
   "property": "C69",
   "status": "partial",
   "theorems": [
    "C69_values_read_back",
    "C69_same_value",
    "C69_one_line",
    "C69_log_reads_back",
    "C69_cut_off_log",
    "C69_missing_line_end",
    "C69_type_key_ends_reading_refuted",
    "C69_non_init_field_ends_reading_refuted",
    "C69_not_exact_refuted",
    "C69_surrogates_are_joined_refuted"
   ],
   "note": "The full claim holds for values that are loggable (MsgCodecSpec): importable dataclasses whose __init__ takes all fields, no dict with a '_type' key, no split surrogate pairs in strings. Findings: a dict with a '_type' key or a dataclass with an init=False field is written without complaint and then ends the reading of the whole log; keys that agree as text are merged; two lone surrogates are joined. base64/numpy buffers, pickle and imports are parameters with explicit premises. This discharges the load(dump m)=m premise of C57."
  },
  {
   "property": "C70",
   "status": "partial",
   "theorems": [
    "C70_publishes_what_is_yielded",
    "C70_at_most_one_per_message",
    "C70_one_error_silences_the_unit_refuted",
    "C70_compose",
    "C70_compose_error",
    "C70_set_key",
    "C70_stray_message_stops_set_key_refuted",
    "C70_filter_on_key",
    "C70_filter_refuses_what_has_no_key"
   ],
   "note": "All parts proved for messages the generator accepts. Finding: after one message for which the generator raises (for SetKey: anything that is not an AxisArray) the unit publishes nothing more, until SetKey gets new settings."
  },
  {
   "property": "C71",
   "status": "partial",
   "theorems": [
    "C71_publishes_what_is_yielded",
    "C71_new_value_never_takes_effect_refuted",
    "C71_generator_is_never_replaced",
    "C71_unprimed_generator_refuses_everything_refuted",
    "C71_called_with_the_settings_as_dicts",
    "C71_called_with_the_settings",
    "C71_dataclass_parameter_arrives_as_dict_refuted",
    "C71_source_publishes_what_is_yielded",
    "C71_source_stops_with_the_function",
    "C71_source_of_a_consumer_loses_a_value_refuted"
   ],
   "note": "Proved while no tracked field changes and for functions decorated with consumer. Findings, proved for every function: a new value of a tracked field never makes a new generator (asdict(STATE) cannot copy the generator: TypeError), the message is lost, and later messages go to the old generator; an undecorated function never processes any message; a consumer used as a source loses its first value; a dataclass parameter arrives as a dict."
  },
  {
   "property": "C72",
   "status": "proved",
   "theorems": [
    "C72_tasks",
    "C72_threads",
    "C72_streams",
    "C72_components",
    "C72_single_inheritance",
    "C72_declared",
    "C72_declared_stream",
    "C72_nothing_else",
    "C72_no_other_stream",
    "C72_main",
    "C72_no_other_main",
    "C72_settings_type",
    "C72_state_type",
    "C72_one_name",
    "C72_no_topics_on_units",
    "C72_definable",
    "C72_diamond_runs_the_overridden_task_refuted",
    "C72_undecorated_override_is_ignored_refuted",
    "C72_mixin_is_ignored_refuted",
    "C72_main_is_lost_refuted",
    "C72_shared_main_is_refused_refuted",
    "C72_stream_is_not_redeclared_refuted"
   ],
   "note": "Proved under the stated condition on names; without it the claim is false (six refuted theorems: diamonds, undecorated overrides, mixins that are not units, main functions, redeclared streams)."
  },
  {
   "property": "C73",
   "status": "partial",
   "theorems": [
    "C73_wires",
    "C73_handlers",
    "C73_tasks",
    "C73_nothing_else",
    "C73_publishes",
    "C73_no_other_publisher",
    "C73_timeit_breaks_the_task_refuted",
    "C73_same_name_runs_one_refuted",
    "C73_yield_elsewhere_is_dropped_refuted"
   ],
   "note": "Proved when tasks without subscription have different __name__ within a unit; otherwise only one of them runs (refuted). The claim about timeit is false for every function (refuted). What is yielded for a stream of another process is dropped without error (refuted)."
  },
  {
   "property": "C74",
   "status": "proved",
   "theorems": [
    "C74_constructor",
    "C74_late_settings",
    "C74_settings_last_given",
    "C74_setup",
    "C74_set_up_complete",
    "C74_initialize_once",
    "C74_state_not_shared",
    "C74_retry_refuted",
    "C74_extra_arguments_refuted",
    "C74_any_settings_refuted",
    "C74_default_shared_refuted"
   ],
   "note": "Findings (refuted with witnesses): a unit that failed to be set up for lack of settings cannot be set up later; arguments next to a settings object are ignored; an object that is not of the settings class is accepted as settings; the default object of a state field is shared by all units."
  },
  {
   "property": "C75",
   "status": "proved",
   "theorems": [
    "C75_executed_in_order",
    "C75_own_answer",
    "C75_connect",
    "C75_disconnect_register",
    "C75_queries",
    "C75_settled_once",
    "C75_failed_not_executed",
    "C75_settles",
    "C75_after_the_end",
    "C75_orderly_close",
    "C75_stopped_server_strands_a_query_refuted",
    "C75_bad_name_ends_the_session_refuted",
    "C75_unreadable_answer_strands_the_caller_refuted"
   ],
   "note": "Byte-level model of the session between a GraphContext and the GraphServer (SessionModel) with an invariant over all histories (SessionProofs). Proved: requests executed in call order; each caller gets its own answer; results of connect, disconnect, register and queries; outcomes settled once; failed calls are never executed; no infinite internal run and progress; after the end at most one caller waits; orderly close leaves nobody waiting. Refuted: the call in flight when the session fails waits for ever (server stopped during a query, name that cannot be encoded, answer that cannot be unpickled)."
  },
  {
   "property": "C76",
   "status": "partial",
   "theorems": [
    "C76_once_in_order",
    "C76_called_in_order",
    "C76_why_not_called",
    "C76_released_after_callback",
    "C76_answer",
    "C76_nobody_starves",
    "C76_comes_to_an_end",
    "C76_interrupted_callback_loses_messages_refuted",
    "C76_interrupt_while_waiting_loses_a_message_refuted"
   ],
   "note": "Proved for undisturbed histories: accounting, order, reasons, release discipline, answers, no starvation, progress. Refuted: a BaseException in a callback and an interruption of the wait lose messages already taken. Leaky subscriptions and shutdown during a call are not in this model."
  },
  {
   "property": "C77",
   "status": "partial",
   "theorems": [
    "C77_in_order",
    "C77_nothing_lost_without_timeouts",
    "C77_nothing_lost_if_cancelled_in_time",
    "C77_one_message_at_most",
    "C77_returns",
    "C77_timeout_loses_a_message_refuted",
    "C77_timeout_discards_a_delivered_message_refuted"
   ],
   "note": "Order, one message per call at most, nothing lost without time-outs or when cancelled in time, progress. Refuted: a time-out racing with an arrival loses the message."
  },
  {
   "property": "C78",
   "status": "partial",
   "theorems": [
    "C78_in_order",
    "C78_exactly_what_is_owed",
    "C78_nothing_missing",
    "C78_all_sent_before_the_end",
    "C78_ends_without_error",
    "C78_closes",
    "C78_forgotten",
    "C78_comes_to_rest",
    "C78_cancelled_subscription_stays_refuted",
    "C78_reset_discards_events_refuted",
    "C78_earlier_events_delivered_refuted"
   ],
   "note": "All of it holds once the server's answer has come (except after a connection reset, which discards what is in the buffer). A subscription cancelled before the answer never closes its connection and stays registered, and a number in the future is not respected: refuted."
  },
  {
   "property": "C79",
   "status": "partial",
   "theorems": [
    "C79_one_at_a_time",
    "C79_in_order",
    "C79_returned_first_effect_first",
    "C79_everybody_comes_back",
    "C79_takes_effect",
    "C79_comes_to_rest",
    "C79_what_the_calls_see",
    "C79_returned_connect_took_effect_refuted",
    "C79_pause_then_resume_refuted",
    "C79_everybody_else_comes_back_refuted",
    "C79_time_out_frees_the_others_refuted"
   ],
   "note": "Proved for every interleaving: one at a time (explains), in order and at most once, what a returning call reports has happened, with the graph of DagModel exactly what dag() and connect() see; everybody comes back and takes effect when requests left unfinished are closed; everything comes to rest. Refuted, with witnesses: connect() returns normally when the connection is lost before the answer; resume() after pause() may overtake it; a topic that cannot be encoded blocks the server for everybody until that connection is closed; sync() with a time-out leaves the server waiting for the publisher, serving nobody."
  },
  {
   "property": "C80",
   "status": "partial",
   "theorems": [
    "C80_fails_exactly_when",
    "C80_mermaid_says_what_the_graph_is",
    "C80_dot_says_what_the_graph_is",
    "C80_the_graph_of_the_server",
    "C80_topic_inside_topic_refuted",
    "C80_compact_drawing_refuted",
    "C80_boxes_have_different_names_refuted",
    "C80_dot_hyphen_refuted",
    "C80_reserved_words_refuted"
   ],
   "note": "Proved by printing and reading back: small readers of Mermaid flowcharts and DOT (DrawSpec) recover from the text exactly the nodes with their box paths, links and boxes. Exact condition for failure proved; the full statement is refuted (topic inside topic, compact level 3, clashing box names, unquoted DOT labels, reserved words). Left out: code points above 255, level separators other than the default; the readers cover the parts of the languages the text uses."
  },
  {
   "property": "C81",
   "status": "partial",
   "theorems": [
    "C81_outcomes",
    "C81_started_listens",
    "C81_different_addresses",
    "C81_where",
    "C81_no_free_ports",
    "C81_only_when_asked",
    "C81_context_reaches",
    "C81_alone",
    "C81_restart",
    "C81_at_the_documented_address_refuted",
    "C81_defaults_meet_refuted",
    "C81_race_hangs_refuted",
    "C81_race_raises_refuted",
    "C81_start_reports_refuted",
    "C81_start_for_ever_refuted",
    "C81_service_asked_again_refuted",
    "C81_entered_twice_refuted",
    "C81_restart_chosen_port_refuted"
   ],
   "note": "Proved for every interleaving: what each outcome of ensure() implies, where servers start, that they listen alone at the reported address until stopped, that no server is started unasked, that a context's address is served when ensure returns, the outcome of a call without interference, and immediate restart at a given address. Refuted: the documented default 127.0.0.1:25978 for auto-started servers; default programs meeting; two auto_start calls racing for one address (the second hangs for ever, or raises); the start command's report and its termination; a service asked again after its server stopped; a context entered twice; restart at a port the server had chosen itself. The operating system's bind/listen/connect rules are the model's (Linux, SO_REUSEADDR); wildcard hosts and unparsable environment strings are left out."
  },
  {
   "property": "C82",
   "status": "partial",
   "theorems": [
    "C82_first_message",
    "C82_settled",
    "C82_every_message",
    "C82_after_query",
    "C82_comes_to_rest",
    "C82_calls_return",
    "C82_others_return",
    "C82_cut_off_only_by_departure",
    "C82_departure_cuts_off_others_refuted",
    "C82_create_hangs_refuted",
    "C82_time_out_loses_message_refuted",
    "C82_late_answer_misleads_refuted",
    "C82_no_port_blocks_everybody_refuted",
    "C82_connect_returns_early_refuted"
   ],
   "note": "Proved for every interleaving: first message, every later message, the effect of a query as a barrier, settling after time-outs, termination of everything the system does by itself and what holds then. Refuted: a departing publisher cuts off a subscriber from all others for ever (or its create hangs); a time-out, and a late answer after a time-out, let Publisher.create return too early; a publisher without a port blocks the server; connect() returns before it takes effect. Sessions (C30), shared channels of one process (C49), message transport (C15, C16) and bytes (C02, C75, C79) are in other models."
  },
  {
   "property": "C83",
   "status": "partial",
   "theorems": [
    "C83_fields",
    "C83_required",
    "C83_default",
    "C83_entries",
    "C83_plain",
    "C83_choices",
    "C83_bounds",
    "C83_bounds_pydantic1",
    "C83_bounds_param",
    "C83_widget",
    "C83_declared",
    "C83_postponed_annotation_loses_choices_refuted",
    "C83_frozenset_choices_refuted",
    "C83_widget_by_substring_refuted",
    "C83_param_number_has_no_widget_refuted",
    "C83_pydantic_factory_default_refuted",
    "C83_pydantic2_limits_refuted",
    "C83_large_bound_raises_refuted",
    "C83_init_false_refuted",
    "C83_raising_factory_refuted"
   ],
   "note": "Proved: fields, required (against a separate semantics of constructing instances), defaults and entries of structured values, plainness, choices, bounds (up to the exactness of float()), widgets of the plain types. Refuted: choices under postponed annotations and as frozenset; widgets by substring and for param.Number; default_factory and limits of pydantic; huge bounds; init=False; raising factories. What pydantic and param offer on their field objects is stated in the model."
  },
  {
   "property": "C84",
   "status": "partial",
   "theorems": [
    "C84_sync_quiesces",
    "C84_pause_holds",
    "C84_pause_reaches",
    "C84_sync_returns",
    "C84_resume_releases",
    "C84_nothing_lost",
    "C84_comes_to_rest",
    "C84_order_deadlocks_refuted",
    "C84_pause_then_sync_refuted",
    "C84_waiting_broadcast_refuted"
   ],
   "note": "Proved for every pipeline, history and interleaving of the model: sync() leaves the pipeline quiet until a resume (if no broadcast was waiting for a buffer when its publisher was told), pause() pauses every publisher once it has read it, a paused publisher publishes nothing, every sync() returns if publishers were registered upstream first and none was paused when it was taken up, resume() lets everything complete, with nothing lost or made twice, and the pipeline comes to rest. Refuted otherwise: a downstream publisher registered first, or pause() before sync(), blocks the server for ever; a broadcast waiting for a buffer slips out after sync() has returned. Publishers and subscribers do not come and go meanwhile, and a broadcast with a free buffer is delivered in one step."
  },
  {
   "property": "C85",
   "status": "partial",
   "theorems": [
    "C85_publisher",
    "C85_channel",
    "C85_channel_without_segment",
    "C85_unknown_publisher",
    "C85_subscriber",
    "C85_client_killed",
    "C85_no_segment",
    "C85_no_segment_refuted",
    "C85_bad_topic_refuted",
    "C85_publisher_gone_refuted",
    "C85_remote_lease_refuted",
    "C85_server_dies_subscriber_refuted",
    "C85_server_dies_publisher_refuted"
   ],
   "note": "Proved: publisher, channel (with and without segment, unknown publisher), subscriber, and the death of the client at any moment, over all schedules and divisions of the byte streams. Refuted parts are stated as findings: unencodable topic, segment that cannot be made (3.10/3.11), publisher gone, lease of a segment that cannot be opened here, death of the server in mid-handshake. The notification of subscribers that follows PUBLISH is C82's."
  },
  {
   "property": "C86",
   "status": "partial",
   "theorems": [
    "C86_delivered",
    "C86_order_kept",
    "C86_cancelled_published_nothing",
    "C86_held_is_stable",
    "C86_two_waiting_calls_break_the_channel_refuted",
    "C86_two_waiting_calls_lose_a_message_refuted",
    "C86_overlap_in_drain_refuted",
    "C86_timeout_in_drain_refuted",
    "C86_timeout_but_published_refuted"
   ],
   "note": "Proved for every run in which no call passes the gate while another is inside and no call is cancelled while writing: all delivered once, in one order, unreplaced, connections up, cancelled calls without effect. Refuted without these conditions (five findings). Channels are fixed, with one subscriber each that reads one message at a time, and every message fits the segment."
  },
  {
   "property": "C87",
   "status": "partial",
   "theorems": [
    "C87_once_in_order",
    "C87_only_when_on",
    "C87_nothing_lost",
    "C87_deliverable",
    "C87_one_pusher",
    "C87_off_ends",
    "C87_close_returns",
    "C87_closed_is_quiet",
    "C87_close_hangs_refuted",
    "C87_second_control_drops_refuted",
    "C87_fetch_steals_refuted",
    "C87_ttl_drops_refuted",
    "C87_pusher_survives_close_refuted"
   ],
   "note": "close() ends only if it is not called while the loop is switching tracing off (otherwise it hangs: finding); samples are kept only while nobody re-requests tracing, fetches by hand or lets the time limit end (findings); one endpoint (merging is in C41's model)."
  },
  {
   "property": "C88",
   "status": "partial",
   "theorems": [
    "C88_all_cancelled",
    "C88_cancelled_first",
    "C88_pending",
    "C88_clean",
    "C88_nothing_left",
    "C88_ends",
    "C88_errors",
    "C88_forced",
    "C88_executor",
    "C88_late_task_left_refuted",
    "C88_blocked_refuted",
    "C88_strict_leaves_tasks_refuted",
    "C88_interrupt_counts_nothing_refuted",
    "C88_job_not_counted_refuted"
   ],
   "note": "Unrestricted, the claim is false of the code: a task started while others are being cancelled is left alive under a clean summary, a task that blocks the loop's thread holds up leaving for ever, strict mode cancels nothing, an interrupt makes the counts zero, and a job is not counted until submit() has counted it. All else is proved for every schedule."
  },
  {
   "property": "C89",
   "status": "partial",
   "theorems": [
    "C89_everything_ends",
    "C89_few_moves",
    "C89_kill_frees",
    "C89_justified",
    "C89_final",
    "C89_answer_counts",
    "C89_in_order",
    "C89_held_up",
    "C89_others_go_on_refuted",
    "C89_times_out_refuted",
    "C89_others_answered_refuted"
   ],
   "note": "Everything but the last part is proved without bound. That a process which does not read holds up nobody else is false of the code: the command lock is held while the request is written (three findings). What holds instead is proved: C89_everything_ends (with buffers not full or processes that read), C89_kill_frees, and C89_held_up says exactly what is held up."
  },
  {
   "property": "C90",
   "status": "partial",
   "theorems": [
    "C90_in_order",
    "C90_few_moves",
    "C90_everything_ends",
    "C90_comes_to_rest",
    "C90_no_timeout_needed",
    "C90_only_this_cycle",
    "C90_truthful",
    "C90_never_again",
    "C90_no_timeout_refuted",
    "C90_other_units_refuted",
    "C90_wrong_outcome_refuted",
    "C90_ping_refuted"
   ],
   "note": "Order, termination, delivery, the exact characterisation of the waiting cycle, truthful outcomes without time-outs and behaviour after a closed connection are proved for every number of units and buffers. That no time-out is needed, that other units are not affected, that outcomes are right after time-outs and that pings do not wait are false of the code: four refuted theorems, each for every number of buffers."
  },
  {
   "property": "C91",
   "status": "partial",
   "theorems": [
    "C91_nothing_lost",
    "C91_one_at_a_time",
    "C91_two_headers_refuted",
    "C91_samples_lost_refuted",
    "C91_crash_refuted"
   ],
   "note": "Proved for processes of one version under every interleaving, and for any versions importing one after the other. One header under overlapping imports, no loss with mixed versions and no failing import are false of the code: three refuted theorems."
  },
  {
   "property": "C92",
   "status": "partial",
   "theorems": [
    "C92_not_debugging",
    "C92_transparent",
    "C92_method_transparent",
    "C92_never_more",
    "C92_sample_time",
    "C92_debug_log",
    "C92_publisher_refuted",
    "C92_subscriber_refuted",
    "C92_stray_axis_refuted",
    "C92_window_time_refuted"
   ],
   "note": "Transparency is proved for tasks that take a message and yield well-made messages, and for methods; publishers without a message parameter, plain subscribers, stray time axes and windowed messages break it: four refuted theorems."
  },
  {
   "property": "C93",
   "status": "partial",
   "theorems": [
    "C93_other_processes",
    "C93_bounded",
    "C93_not_below",
    "C93_last_heard",
    "C93_idle_refuted",
    "C93_slow_connection_refuted"
   ],
   "note": "Proved: exact when all subscribers are in other processes (C93_other_processes); in every case bounded, not below while no broadcast is under way, and right when last heard (C93_bounded, C93_not_below, C93_last_heard). That every report is exact is false of the code for subscribers in the publisher's process: C93_idle_refuted, C93_slow_connection_refuted."
  },
  {
   "property": "C94",
   "status": "partial",
   "theorems": [
    "C94_every_nth",
    "C94_counted",
    "C94_off",
    "C94_leaky",
    "C94_leaky_refuted",
    "C94_raising_refuted",
    "C94_restart_refuted"
   ],
   "note": "Proved: C94_every_nth, C94_counted, C94_off, C94_leaky. That every traced message leaves all its samples, and only messages since tracing began do, is false of the code: tasks of leaky subscribers are never traced (C94_leaky_refuted), a message whose task raises has no lease time (C94_raising_refuted), and a trace restarted while a task runs gets a sample from before (C94_restart_refuted)."
  },
  {
   "property": "C95",
   "status": "partial",
   "theorems": [
    "C95_snapshot_edges",
    "C95_snapshot_clients",
    "C95_settings_topic",
    "C95_collisions_named",
    "C95_profiles_answered",
    "C95_profiles_own",
    "C95_profiles_complete",
    "C95_profiles_own_refuted",
    "C95_collisions_blamed_refuted"
   ],
   "note": "Consistency of the snapshot, the settings topic and the completeness of profiling_snapshot_all are proved for every history and interleaving. That a profile is the named process's own is proved when no process comes, changes units or goes during the call (C95_profiles_own) and refuted otherwise; that a refused registration's error names the components that caused it is proved for the snapshot it is made from, and refuted when other commands come in between."
  },
  {
   "property": "C96",
   "status": "proved",
   "theorems": [
    "C96_relay",
    "C96_fan",
    "C96_expected",
    "C96_source",
    "C96_sink",
    "C96_sink_none_refuted",
    "C96_placement",
    "C96_fanout_clients_refuted",
    "C96_order",
    "C96_figures",
    "C96_no_figures",
    "C96_one_message_refuted",
    "C96_rate_refuted",
    "C96_dropped",
    "C96_dropped_fanin_refuted",
    "C96_tests",
    "C96_log",
    "C96_report",
    "C96_benchmark_reported",
    "C96_report_shared_refuted"
   ],
   "note": "Time stamps are integers and figures exact rationals (no floating point). Findings: a benchmark of no messages ends only by time-out; one received message makes the figures raise; the mean rate overstates periodic sending; losses in fan-in are hidden by other sources' counters; fan-out over shared memory keeps publisher and clients in one process; tests differing only in messages, duration or buffers overwrite each other in the report."
  },
  {
   "property": "C97",
   "status": "partial",
   "theorems": [
    "C97_held_inside",
    "C97_taken_and_released_once",
    "C97_left_released",
    "C97_held_by",
    "C97_no_timeouts_nothing_held",
    "C97_can_be_left",
    "C97_can_be_entered",
    "C97_cleaned_by_collection",
    "C97_not_entered_holds_nothing_refuted",
    "C97_block_over_releases_refuted",
    "C97_exit_error_means_held_refuted"
   ],
   "note": "LeaseModel: one thread's blocks over the event loop, its tasks, futures and generators. All but the last sentence is proved for every history, with progress (a block can be left, can be entered once a message waits) and cleaning by the loop and the collector (C97_cleaned_by_collection). The last sentence is refuted, for entry and for exit."
  },
  {
   "property": "C98",
   "status": "partial",
   "theorems": [
    "C98_report",
    "C98_children",
    "C98_nothing_left",
    "C98_kept",
    "C98_errors_reported",
    "C98_bad_arguments",
    "C98_works",
    "C98_unanimous",
    "C98_kept_report_refuted",
    "C98_kept_errors_refuted",
    "C98_no_directory_left_refuted",
    "C98_regression_is_slower_refuted",
    "C98_both_warm_refuted",
    "C98_every_variable_refuted"
   ],
   "note": "Report, children's tree/interpreter/environment, clean-up, refusal of bad arguments and success proved. Refuted: --keep-worktrees drops the error of a failing child or git (report with fewer pairs, UnboundLocalError), a temporary directory is left if git worktree add fails, a 'regression' with B's median lower, a side left cold, VIRTUAL_ENV overwritten."
  },
  {
   "property": "C99",
   "status": "partial",
   "theorems": [
    "C99_restored",
    "C99_block_runs",
    "C99_first_cpu_avoided",
    "C99_average",
    "C99_robust",
    "C99_priority_class_refuted",
    "C99_niceness_refuted",
    "C99_not_lowered_refuted",
    "C99_environment_refuted",
    "C99_best_effort_refuted",
    "C99_first_cpu_refuted",
    "C99_median_refuted",
    "C99_timer_refuted"
   ],
   "note": "Restoration, what the block finds, and the robust average proved. Refuted: Windows priority class never restored, negative niceness of an unprivileged process lost, priority lowered from below -10, variables stay set, unreadable CPUs prevent the block, CPU 0 chosen of three, upper middle average instead of the median, timer period given back though refused."
  },
  {
   "property": "C100",
   "status": "partial",
   "theorems": [
    "C100_address",
    "C100_same_server",
    "C100_not_started",
    "C100_stopped",
    "C100_serves",
    "C100_link_ink",
    "C100_link_pako",
    "C100_base64_unique",
    "C100_link_injective",
    "C100_link_made",
    "C100_run_command",
    "C100_opened",
    "C100_dashboard_false_refuted",
    "C100_unknown_target_refuted",
    "C100_slash_refuted",
    "C100_last_port_refuted",
    "C100_not_stopped_refuted"
   ],
   "note": "proved of the model; five findings (slash in links, port 65536, a dashboard whose stop raises, dashboard=False, unknown targets). argparse beyond the two options of serve and the waiting of start are not modelled; zlib and json.dumps are arbitrary functions"
  },
  {
   "property": "C101",
   "status": "proved",
   "theorems": [
    "C101_cases",
    "C101_results",
    "C101_sample",
    "C101_way",
    "C101_way_refuted",
    "C101_clean",
    "C101_figures",
    "C101_rate_refuted",
    "C101_sizes_refuted",
    "C101_nothing_refuted"
   ],
   "note": "proved of the model; findings beside the claim: figures that contradict each other for an even number of samples, order of sizes, nothing to measure, cases named local or shm measured over TCP where there is no shared memory. Exact rationals for floats; printing, JSON, median of means and coefficient of variation are left out"
  },
  {
   "property": "C102",
   "status": "proved",
   "theorems": [
    "C102_differences",
    "C102_none",
    "C102_order",
    "C102_lines"
   ],
   "note": "fields and printing of values are arbitrary; the line structure is for names and values without line breaks"
  }
 ]
}
