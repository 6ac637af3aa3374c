{
 "claims": [
  {
   "property": "C01",
   "status": "proved",
   "theorems": [
    "C01_every_sink_called_once_in_order",
    "C01_sinks_in_attachment_order",
    "C01_nothing_else_calls_sinks"
   ],
   "note": "Fan-out for every emitting API call in every reachable world; attachment order from the API history; no other API call reaches a sink. Sinks are assumed to return and not to panic."
  },
  {
   "property": "C02",
   "status": "proved",
   "theorems": [
    "C02_call_over_job_over_stream",
    "C02_iteration_order_irrelevant",
    "C02_levels_as_set"
   ],
   "note": "For every reachable world and emission, and for every enumeration order of the three maps."
  },
  {
   "property": "C03",
   "status": "proved",
   "theorems": [
    "C03_emitting_edits_no_map"
   ],
   "note": "Every map allocated before an emission has the same contents afterwards."
  },
  {
   "property": "C04",
   "status": "partial",
   "theorems": [
    "C04_kept_map_changes_refuted",
    "C04_kept_map_stable_partial",
    "C04_exactly_partial"
   ],
   "note": "The code violates the full statement: with exactly one non-empty level it hands out that level's own map, so a later KeyValue changes what a sink kept. Proved when none or at least two levels have key/values. Exactly then, if the map given with the call is the application's own (C04_exactly_partial)."
  },
  {
   "property": "C05",
   "status": "proved",
   "theorems": [
    "C05_wrap_once_keep_text_mark"
   ],
   "note": "The flag each sink sees is in C01_every_sink_called_once_in_order (was_emitted). Nil pointers of the wrapper types are excluded by `valid`."
  },
  {
   "property": "C06",
   "status": "proved",
   "theorems": [
    "C06_one_notification_per_error",
    "C06_one_notification_interleaved",
    "C06_muted_never_notified"
   ],
   "note": "Calls are sequential: two goroutines reporting the same error at the same moment are not modelled."
  },
  {
   "property": "C07",
   "status": "partial",
   "theorems": [
    "C07_completion_lost_refuted",
    "C07_run_completes_partial",
    "C07_run_reports_panic_partial",
    "C07_stream_run_partial"
   ],
   "note": "Fails in the code for runtime.Goexit and, before Go 1.21, for panic(nil): no completion is sent. Proved for functions that return or panic with a value."
  },
  {
   "property": "C08",
   "status": "partial",
   "theorems": [
    "C08_panic_notified_twice_refuted",
    "C08_run_notifies_once_partial"
   ],
   "note": "The code violates it: Run returns the unwrapped error, so re-reporting it always enqueues a second notification. Proved: Run itself enqueues exactly one."
  },
  {
   "property": "C09",
   "status": "proved",
   "theorems": [
    "C09_event_counters_exact"
   ],
   "note": "All histories with a non-decreasing clock; counts modulo int64."
  },
  {
   "property": "C10",
   "status": "proved",
   "theorems": [
    "C10_per_job_exact",
    "C10_top_level_is_sum_of_jobs"
   ],
   "note": "Per-job contents and the sum over jobs; counts modulo int64; timer extremes for at most 2^64 timings."
  },
  {
   "property": "C11",
   "status": "proved",
   "theorems": [
    "C11_timer_summaries_exact"
   ],
   "note": "For at most 2^64 timings per interval (the code recognises the first timing by Count == 1)."
  },
  {
   "property": "C12",
   "status": "proved",
   "theorems": [
    "C12_sum_of_squares",
    "C12_sum_of_squares_exact"
   ],
   "note": "Every timer and job timer of every interval a sink reports, for int64 measurements: exact up to 2^53, finite, not negative, within one rounding per measurement plus three. Uses the standard library axioms of the real numbers."
  },
  {
   "property": "C13",
   "status": "proved",
   "theorems": [
    "C13_gauges_report_last_value",
    "C13_job_gauges_report_last_value"
   ],
   "note": "Top level and per job."
  },
  {
   "property": "C14",
   "status": "partial",
   "theorems": [
    "C14_error_counters_and_samples_partial",
    "C14_one_slot_refuted",
    "C14_resolved_stack_refuted",
    "C14_samples_partial",
    "C14_one_slot_partial",
    "C14_what_changes"
   ],
   "note": "Violated by the code: DeepEqual also compares the Emitted flag (set after the sinks were told) and the resolved frames of the stack, so two consecutive errors of the same text and stack take two slots or one depending on when the sink's goroutine gets to them, and on Bugsnag. Partial: everything holds where errors are equal if text and stack are and nothing else changes (C14_error_counters_and_samples_partial, for whole histories), and in the model with the pointers the samples are reported errors with the last one among them, one slot for equal ones whose other fields are settled. Samples characterised for non-nil errors (the API never passes nil, C05)."
  },
  {
   "property": "C15",
   "status": "proved",
   "theorems": [
    "C15_completion_counters"
   ],
   "note": "All status values, including undefined ones, which only count in the timer."
  },
  {
   "property": "C16",
   "status": "proved",
   "theorems": [
    "C16_bounded_retention_window",
    "C16_sliding_keeps_data",
    "C16_recent_kept",
    "C16_nothing_lost"
   ],
   "note": "retain >= interval > 0, non-decreasing clock. While all that happened is within the retention, the intervals shown share out all commands and the totals are exact (C16_nothing_lost)."
  },
  {
   "property": "C17",
   "status": "partial",
   "theorems": [
    "C17_any_retention_safe_refuted",
    "C17_any_retention_safe_partial"
   ],
   "note": "The code violates this: retain < interval makes the first command, tick or read panic. Proved safe for retain >= interval with any clock."
  },
  {
   "property": "C18",
   "status": "partial",
   "theorems": [
    "C18_one_entry_per_interval_refuted",
    "C18_one_entry_per_interval_partial",
    "C18_one_entry_exactly_partial"
   ],
   "note": "The code violates this when the clock steps back over an interval boundary. Proved for non-decreasing clocks, and for every clock exactly when it holds: no interval is visited twice among the visits shown (C18_one_entry_exactly_partial, visits as in C136)."
  },
  {
   "property": "C19",
   "status": "proved",
   "theorems": [
    "C19_serial_counts_commands",
    "C19_emission_raises_serial_by_one",
    "C19_ticks_and_reads_change_nothing",
    "C19_same_serial_same_contents"
   ],
   "note": "Same-serial reads: non-decreasing clock and fewer than 2^64 commands in the interval."
  },
  {
   "property": "C20",
   "status": "proved",
   "theorems": [
    "C20_snapshot_is_stable",
    "C20_pointers_and_values_agree",
    "C20_only_the_current_interval_is_copied"
   ],
   "note": "Pointer-level heap, every history before and after the read, arbitrary clock, every iteration order of the map ranges. Also: the pointer program refines the value model of MAgg.v, panics included; only the current interval is copied, older ones are shared with the aggregator (so a reader that wrote to its snapshot would corrupt it)."
  },
  {
   "property": "C21",
   "status": "proved",
   "theorems": [
    "C21_clone_is_deep_equal_and_disjoint",
    "C21_programs_never_alias"
   ],
   "note": "Every heap; any later writes through either pointer. One cell per struct or map; error values are immutable."
  },
  {
   "property": "C22",
   "status": "proved",
   "theorems": [
    "C22_merge_adds_counters",
    "C22_merge_adds_job_counters",
    "C22_merge_keeps_int64",
    "C22_sink_intervals_are_int64"
   ],
   "note": "Values assumed to be int64s, which is proved to hold for sinks and to be kept by Merge."
  },
  {
   "property": "C23",
   "status": "partial",
   "theorems": [
    "C23_merged_extremes_refuted",
    "C23_merged_extremes_partial",
    "C23_job_extremes_partial",
    "C23_exactly_partial"
   ],
   "note": "The code violates this for jobs a host has emitted into but not completed (NanosMin becomes 0). Proved for named timers and for jobs completed on every host that mentions them. In every case the extremes are those of the durations and of a 0 for every host that mentions the job without completing it; with durations above 0 the maximum is always right and the minimum exactly when every such host completed it (C23_exactly_partial)."
  },
  {
   "property": "C24",
   "status": "proved",
   "theorems": [
    "C24_merge_leaves_its_argument_alone"
   ],
   "note": "Every heap with two disjoint aggregations; any later writes through either pointer."
  },
  {
   "property": "C25",
   "status": "proved",
   "theorems": [
    "C25_split_history_merges_to_whole"
   ],
   "note": "Counts and sums of events, errors, timers, completions; any number of hosts and any interleaving."
  },
  {
   "property": "C26",
   "status": "proved",
   "theorems": [
    "C26_merge_order_irrelevant",
    "C26_map_iteration_order_irrelevant"
   ],
   "note": "Start, serial, counts, sums, minima, maxima; also independence of Go's map iteration order."
  },
  {
   "property": "C27",
   "status": "partial",
   "theorems": [
    "C27_merged_sum_of_squares_partial",
    "C27_merged_sum_of_squares_order_refuted"
   ],
   "note": "The code violates this: float addition is not associative; witness with three hosts. Partial: exact, hence independent of the order, when the true sum is at most 2^53; otherwise within one rounding per measurement and host of the true sum."
  },
  {
   "property": "C28",
   "status": "proved",
   "theorems": [
    "C28_processed_once_in_order",
    "C28_never_dies"
   ],
   "note": "Every interleaving of emitters, readers, tickers and Stop over the sink's channels; buffer size as in the code."
  },
  {
   "property": "C29",
   "status": "proved",
   "theorems": [
    "C29_read_sees_prefix",
    "C29_reads_grow",
    "C29_reader_served"
   ],
   "note": "Every interleaving; a read returns the aggregation of a prefix of the accepted commands."
  },
  {
   "property": "C30",
   "status": "partial",
   "theorems": [
    "C30_read_your_writes_refuted",
    "C30_read_your_writes_partial",
    "C30_quiet_read_partial"
   ],
   "note": "The code violates this: an emit that has returned may still sit in the command channel when a later read is served. Proved: what a read can miss, and read-your-writes when the channel was drained."
  },
  {
   "property": "C31",
   "status": "proved",
   "theorems": [
    "C31_shutdown_final",
    "C31_shutdown_served"
   ],
   "note": "Every interleaving; nothing is processed after the shutdown reply, and a Stop can always be served."
  },
  {
   "property": "C32",
   "status": "partial",
   "theorems": [
    "C32_body_refuted",
    "C32_names_refuted",
    "C32_body_partial",
    "C32_pages_partial",
    "C32_body_exactly_partial",
    "C32_pages_exactly_partial",
    "C32_other_paths"
   ],
   "note": "Violated by the code: the document is used as the format of Fprintf, so a percent sign in a name gives a body that is not JSON or says something else (refuted). Partial: without percent signs the body is the document, byte for byte, and a JSON text by the grammar of RFC 8259; with any percent sign in any name it is not the document (C32_body_exactly_partial, C32_pages_exactly_partial)."
  },
  {
   "property": "C33",
   "status": "partial",
   "theorems": [
    "C33_gauge_refuted",
    "C33_served_partial"
   ],
   "note": "Violated by the code: with one NaN or infinite gauge /health answers 500 and shows no metric (refuted). Partial: finite floats and four-digit years are all it takes for the document to be served."
  },
  {
   "property": "C34",
   "status": "partial",
   "theorems": [
    "C34_names_refuted",
    "C34_round_trip_partial",
    "C34_emissions_arrive_partial"
   ],
   "note": "Violated by the code: names that are not UTF-8 are replaced and may coincide (refuted). Partial: the round trip for valid names without percent signs, for any interval and for whatever a sink serves after any history of emissions; the rendering of floats is any that reads back the same float (an executable instance is proved to do so)."
  },
  {
   "property": "C35",
   "status": "proved",
   "theorems": [
    "C35_datagrams_fit",
    "C35_never_crashes"
   ],
   "note": "Also: the goroutine never panics. Datagrams are what is handed to WriteToUDP; the network is not modelled."
  },
  {
   "property": "C36",
   "status": "proved",
   "theorems": [
    "C36_lines_whole_in_order",
    "C36_flush_sends_everything"
   ],
   "note": "All histories of commands and flushes, any appending sanitizer."
  },
  {
   "property": "C37",
   "status": "proved",
   "theorems": [
    "C37_command_yields_its_lines"
   ],
   "note": "Each command between two flushes, after any history; timing and gauge text as in MFmt.v (shortest float form uninterpreted)."
  },
  {
   "property": "C38",
   "status": "proved",
   "theorems": [
    "C38_default_sanitizer_safe"
   ],
   "note": "Assumes Go's shortest float text contains no colon, bar or newline."
  },
  {
   "property": "C39",
   "status": "partial",
   "theorems": [
    "C39_names_nonempty_refuted",
    "C39_names_nonempty_partial",
    "C39_nameless_exactly_partial"
   ],
   "note": "The code violates this: event \"\" without prefix sends \":1|c\". Proved whenever a prefix, event, suffix or status is non-empty, and only then (C39_nameless_exactly_partial)."
  },
  {
   "property": "C40",
   "status": "partial",
   "theorems": [
    "C40_timing_error_refuted",
    "C40_timing_error_partial",
    "C40_timing_is_number",
    "C40_timing_monotone"
   ],
   "note": "The code violates the error bound for durations below -2^53 ns (refuted). Partial: exact milliseconds from 10 ms on, 0.005001 ms for durations from -2^53 ns to 10 ms, 0.0071 ms below; always a number, and monotone over all int64s."
  },
  {
   "property": "C41",
   "status": "proved",
   "theorems": [
    "C41_drain_delivers",
    "C41_drain_empties_queue"
   ],
   "note": "Drain calls that do not overlap (any number, any emitters, flushes and Stops)."
  },
  {
   "property": "C42",
   "status": "partial",
   "theorems": [
    "C42_concurrent_drains_return_refuted",
    "C42_stop_during_drain_returns_refuted",
    "C42_drain_during_stop_returns_refuted",
    "C42_single_drain_returns_partial",
    "C42_single_stop_returns_partial"
   ],
   "note": "The code violates this: DRAIN_LOOP swallows Drain and Stop commands, and Stop leaves later Drains waiting. Proved: a Drain or Stop that overlaps no other call returns once emitters pause."
  },
  {
   "property": "C43",
   "status": "partial",
   "theorems": [
    "C43_stop_delivers_refuted",
    "C43_stop_processes_partial"
   ],
   "note": "The code violates this: Stop does not flush. Proved: everything accepted before was processed, at most one buffer is lost."
  },
  {
   "property": "C44",
   "status": "proved",
   "theorems": [
    "C44_one_write_of_one_line",
    "C44_order_irrelevant"
   ],
   "note": "All jobs, events, key/values (also empty) and times; the text of a time is a parameter."
  },
  {
   "property": "C45",
   "status": "partial",
   "theorems": [
    "C45_one_line_refuted",
    "C45_newlines_partial",
    "C45_exactly_partial"
   ],
   "note": "Violated by the code: a newline in a name, message or value is written as it is (refuted). Partial: the line has exactly the newlines of its parts plus the final one. One line exactly when no text has a newline (C45_exactly_partial)."
  },
  {
   "property": "C46",
   "status": "proved",
   "theorems": [
    "C46_time_text"
   ],
   "note": "All int64 times."
  },
  {
   "property": "C47",
   "status": "proved",
   "theorems": [
    "C47_one_object",
    "C47_not_forged",
    "C47_nothing_for_nan"
   ],
   "note": "Valid UTF-8 text; the decoded value determines the emission. The rendering of floats is any that reads back the same float."
  },
  {
   "property": "C48",
   "status": "proved",
   "theorems": [
    "C48_batch_contents",
    "C48_names"
   ],
   "note": "All event sequences; JSON encoding of a batch is abstract (measurements as data)."
  },
  {
   "property": "C49",
   "status": "proved",
   "theorems": [
    "C49_periods_isolated",
    "C49_outcome_irrelevant"
   ],
   "note": "All event sequences and outcomes of the requests."
  },
  {
   "property": "C50",
   "status": "proved",
   "theorems": [
    "C50_only_allowed",
    "C50_allowed_unchanged",
    "C50_idempotent",
    "C50_per_character",
    "C50_reads"
   ],
   "note": "All byte strings; UTF-8 decoding as in Go, invalid bytes included."
  },
  {
   "property": "C51",
   "status": "proved",
   "theorems": [
    "C51_payload_faithful"
   ],
   "note": "newPayload; the JSON text and the HTTP request are not modelled."
  },
  {
   "property": "C52",
   "status": "proved",
   "theorems": [
    "C52_published_is_merge_of_stored",
    "C52_stored_is_latest",
    "C52_stored_exactly",
    "C52_changed_is_recalculated",
    "C52_changed_is_published",
    "C52_unchanged_is_kept",
    "C52_published_was_latest"
   ],
   "note": "All traces of responses, purges and recalculations, every map order; malformed responses (C56) excluded; 'latest' is stated on the trace and needs hosts to give changed data a new serial number."
  },
  {
   "property": "C53",
   "status": "partial",
   "theorems": [
    "C53_strictly_sorted_refuted",
    "C53_strictly_sorted_partial",
    "C53_exactly_partial",
    "C53_sorted_bounded_partial"
   ],
   "note": "The code violates strictness: one instant rendered in two zones is published twice. Proved: sorted, distinct (instant, zone), bounded by 2h/interval for well-formed responses; strictly increasing when all hosts use one zone. Exactly: it increases strictly unless one instant is published in two locations (C53_exactly_partial)."
  },
  {
   "property": "C54",
   "status": "partial",
   "theorems": [
    "C54_repoll_refuted",
    "C54_repoll_after_purge_refuted",
    "C54_repoll_partial",
    "C54_exactly_partial"
   ],
   "note": "The code violates this when a response lists an interval twice with different serials, and after a purge dropped data the host still reports. Proved otherwise. Exactly when an answer taken again after a recalculation costs another one: it lists an interval with two serial numbers (C54_exactly_partial)."
  },
  {
   "property": "C55",
   "status": "partial",
   "theorems": [
    "C55_counts_never_shrink_refuted",
    "C55_published_emptied_refuted",
    "C55_counts_never_shrink_partial",
    "C55_expiring_partial"
   ],
   "note": "The code violates this: data older than five intervals is purged but still reported, so a recalculation between two responses publishes less, and one right after a purge publishes an empty interval. Proved for every additive counter of intervals whose data no purge finds old before all that is ever reported for them has been merged (in particular those never found old)."
  },
  {
   "property": "C56",
   "status": "partial",
   "theorems": [
    "C56_no_crash_refuted",
    "C56_no_crash_partial",
    "C56_every_operation_possible_partial",
    "C56_crashes_exactly_partial",
    "C56_null_entry_kills_refuted"
   ],
   "note": "The code violates this: interval_duration 0 or negative, a null aggregation, or a null job/timer/error entry crash the aggregation goroutine. Proved: no crash for all other responses, and for every reachable state and operation exactly when it crashes (C56_crashes_exactly_partial)."
  },
  {
   "property": "C57",
   "status": "partial",
   "theorems": [
    "C57_one_interval_refuted",
    "C57_duplicated_data_refuted",
    "C57_one_interval_partial"
   ],
   "note": "The code violates this: intervals are keyed by time.Time including its location. Proved when all times decode to one location."
  },
  {
   "property": "C58",
   "status": "proved",
   "theorems": [
    "C58_statuses_current"
   ],
   "note": "All traces; assumes the clock never reads Go's zero time."
  },
  {
   "property": "C59",
   "status": "proved",
   "theorems": [
    "C59_jobs_listed",
    "C59_limit_parsed",
    "C59_correct_sorts_exist",
    "C59_sorted_by_average"
   ],
   "note": "All aggregations, columns, limits, map orders and sorting algorithms meeting sort.Sort's contract. The average is shown never to be NaN; sortedness by stddev assumes that the column has no NaN (C60)."
  },
  {
   "property": "C60",
   "status": "partial",
   "theorems": [
    "C60_stddev_nan_refuted",
    "C60_jobs_described",
    "C60_average_finite",
    "C60_average_partial",
    "C60_stddev_small_partial",
    "C60_stddev_partial"
   ],
   "note": "The code violates this: the standard deviation can be NaN (refuted). Partial: the average is always finite and within two roundings of the mean if the sum does not overflow; the standard deviation is within two roundings when n * sum of squares is at most 2^53, and has a relative error growing with (mean/stddev)^2 otherwise."
  },
  {
   "property": "C61",
   "status": "proved",
   "theorems": [
    "C61_overall_null_without_intervals",
    "C61_overall_sums"
   ],
   "note": "All lists of int64 aggregations; sums are those of Go's int64."
  },
  {
   "property": "C62",
   "status": "proved",
   "theorems": [
    "C62_triggers_apart",
    "C62_trigger_serves_request",
    "C62_in_healthd",
    "C62_in_healthd_serves_request"
   ],
   "note": "Any threshold that is an int64 below 2^63-1, any interleaving, any clock that never goes back; also inside the whole system."
  },
  {
   "property": "C63",
   "status": "proved",
   "theorems": [
    "C63_first_check_after_threshold",
    "C63_checked_every_time",
    "C63_in_healthd",
    "C63_no_response_forgotten"
   ],
   "note": "Same. How soon the debouncer runs is up to the scheduler; each of its iterations looks at the clock."
  },
  {
   "property": "C64",
   "status": "partial",
   "theorems": [
    "C64_deadlock_refuted",
    "C64_request_taken_partial",
    "C64_trigger_taken_partial",
    "C64_wedged_forever_partial",
    "C64_fair_deadlock_refuted"
   ],
   "note": "Violated by the code: with 66 healthy hosts one round of polls can deadlock the loop and the debouncer (refuted, reachable state stuck forever). Partial theorems: the loop gets through unless the debouncer is about to trigger with 64 requests queued, which takes 64 responses since it last found none. The deadlock also occurs in a fair execution without end (C64_fair_deadlock_refuted)."
  },
  {
   "property": "C65",
   "status": "partial",
   "theorems": [
    "C65_handler_hangs_refuted",
    "C65_handler_served_partial",
    "C65_fair_hang_refuted"
   ],
   "note": "Violated by the code: a handler past the flag when Stop runs waits forever (refuted). Partial: until the loop accepts a Stop, and unless it crashed or is near the deadlock of C64, every waiting handler can be answered. 'Can' means without help from outside; for fair executions see C114 and C65_fair_hang_refuted."
  },
  {
   "property": "C66",
   "status": "proved",
   "theorems": [
    "C66_request_reported",
    "C66_panic_leaves_no_completion"
   ],
   "note": "All routes, paths, codes and handlers that return; a panicking handler leaves no completion (second theorem), none of healthd's handlers panics."
  },
  {
   "property": "C67",
   "status": "proved",
   "theorems": [
    "C67_split_at_first_period_after_last_slash",
    "C67_split_lossless"
   ],
   "note": "All byte strings."
  },
  {
   "property": "C68",
   "status": "proved",
   "theorems": [
    "C68_trace_starts_at_reporter",
    "C68_frames_bounded_and_stable"
   ],
   "note": "The call stack seen by runtime.Callers is a list of program counters; inlining and wrapper frames are not modelled. The 50 is the initial value of the variable MaxStackDepth."
  },
  {
   "property": "C69",
   "status": "proved",
   "theorems": [
    "C69_report_is_what_is_enabled",
    "C69_reports_complete_at_stop",
    "C69_silent_after_stop",
    "C69_no_report_after_stop_returned",
    "C69_default_reports_all"
   ],
   "note": "All options, readings and interleavings of one started poller."
  },
  {
   "property": "C70",
   "status": "proved",
   "theorems": [
    "C70_filter_by_name",
    "C70_query_understood",
    "C70_rows_listed",
    "C70_status_line",
    "C70_last_response_shown",
    "C70_escape_round_trip"
   ],
   "note": "All responses, names and terminal heights below 2^63; the sort is any correct one. The HTTP exchange between healthtop and healthd is modelled by the query and the handler."
  },
  {
   "property": "C71",
   "status": "partial",
   "theorems": [
    "C71_overlapping_drain_delivers_refuted",
    "C71_overlapping_drain_delivers_partial",
    "C71_first_drain_delivers_partial"
   ],
   "note": "Violated by the code (witness execution): when the sink has drained for one caller and is only waiting to tell it so, a second caller's Drain can return at once. Partial: a Drain delivers whatever else overlaps, unless it was called in just that moment and took that signal."
  },
  {
   "property": "C72",
   "status": "partial",
   "theorems": [
    "C72_event_counted_once_refuted",
    "C72_event_counted_once_partial",
    "C72_exactly_partial"
   ],
   "note": "The code violates this for the job named \"\" and for no other: exactly then the two names are equal."
  },
  {
   "property": "C73",
   "status": "partial",
   "theorems": [
    "C73_emit_returns_after_stop_refuted",
    "C73_queue_served_before_stop_partial"
   ],
   "note": "The code violates this after Stop once 8192 commands are queued; proved that before any Stop the queue can always be emptied by the sink's own steps."
  },
  {
   "property": "C74",
   "status": "partial",
   "theorems": [
    "C74_nil_report_unreadable_refuted",
    "C74_nil_stays_unreadable_refuted",
    "C74_messages_stay_partial"
   ],
   "note": "Violated by the code: the result is a non-nil UnmutedError holding nil, and reading its message dereferences nil, then and forever after. Partial: errors that have a message keep it through any number of reports."
  },
  {
   "property": "C75",
   "status": "partial",
   "theorems": [
    "C75_shutdown_drops_queue_refuted",
    "C75_reports_block_after_shutdown_refuted",
    "C75_sent_once_in_order_partial",
    "C75_queue_can_be_sent_partial"
   ],
   "note": "The code violates the full statement: ShutdownServer drops the queue, and after it the 26th report blocks. Proved: order, no duplicates, and that the running loop can empty the queue."
  },
  {
   "property": "C76",
   "status": "partial",
   "theorems": [
    "C76_settings_partial",
    "C76_app_version_ignored_refuted",
    "C76_no_stage_default_refuted",
    "C76_endpoint_default_partial"
   ],
   "note": "The code violates it: AppVersion is never sent, ReleaseStage and Hostname have no default. Proved for Endpoint; and the API key, endpoint, stage and host as configured reach the request."
  },
  {
   "property": "C77",
   "status": "partial",
   "theorems": [
    "C77_sibling_directory_refuted",
    "C77_goroot_files_partial",
    "C77_exactly_partial"
   ],
   "note": "The code violates it: the test is a string prefix without a path separator. Proved: files inside GOROOT are marked, and marked files start with GOROOT. The files wrongly marked are exactly those whose name goes on after GOROOT without a slash (C77_exactly_partial)."
  },
  {
   "property": "C78",
   "status": "proved",
   "theorems": [
    "C78_good_poll_reported",
    "C78_failed_poll_reported"
   ],
   "note": "All outcomes of the HTTP request."
  },
  {
   "property": "C79",
   "status": "proved",
   "theorems": [
    "C79_hosts_sorted"
   ],
   "note": "All lists of hosts."
  },
  {
   "property": "C80",
   "status": "proved",
   "theorems": [
    "C80_nil_means_all_hosts",
    "C80_nothing_after_nil"
   ],
   "note": "All hosts, rounds and interleavings."
  },
  {
   "property": "C81",
   "status": "proved",
   "theorems": [
    "C81_serial",
    "C81_crash_is_an_operation",
    "C81_answer_current"
   ],
   "note": "All interleavings; a crash of the loop is a crash of one of its operations."
  },
  {
   "property": "C82",
   "status": "partial",
   "theorems": [
    "C82_no_call_after_stop",
    "C82_refused_after_stop",
    "C82_silence_after_stop",
    "C82_stop_returns_partial",
    "C82_second_stop_refuted",
    "C82_fair_second_stop_refuted"
   ],
   "note": "The two safety parts hold. That Stop returns is violated for a second call (refuted) and in the deadlock of C64; partial theorem for the first call. The second call waits forever also in a fair execution."
  },
  {
   "property": "C83",
   "status": "partial",
   "theorems": [
    "C83_names_distinct_refuted",
    "C83_names_distinct_partial",
    "C83_names_exactly_partial"
   ],
   "note": "Violated by the code: Event error in job login and EventErr login both count as login.error (refuted), and a timing named like a status collides with completions. Partial: names free of dots, not status names and not ending in error. C83_names_exactly_partial: for any names, two metrics share a name exactly when they are of one sort (counts, durations, values) and read the same when written with dots."
  },
  {
   "property": "C84",
   "status": "partial",
   "theorems": [
    "C84_modest_batches_sent_partial",
    "C84_batch_always_sent_refuted",
    "C84_batch_sent_partial"
   ],
   "note": "Violated by the code: a gauge of 1e200 has an infinite sum of squares, which encoding/json refuses, so the batch is dropped (refuted). Partial: the batch is sent when all its numbers are finite. In particular for all int64 durations and gauges up to 10^100."
  },
  {
   "property": "C85",
   "status": "partial",
   "theorems": [
    "C85_stop_sends_all_refuted",
    "C85_sent_partial",
    "C85_after_stop_partial"
   ],
   "note": "Violated by the code: Stop does not wait and what is queued may be lost (refuted). Partial: exact accounting of what is sent."
  },
  {
   "property": "C86",
   "status": "partial",
   "theorems": [
    "C86_emit_returns_refuted",
    "C86_emit_returns_partial"
   ],
   "note": "Violated by the code: after Stop the queue fills up at 4096 (refuted). Partial: while the loop runs."
  },
  {
   "property": "C87",
   "status": "partial",
   "theorems": [
    "C87_stop_stops_reporting_refuted",
    "C87_live_pollers_partial",
    "C87_stop_needs_start_partial"
   ],
   "note": "Violated by the code: two Starts and one Stop leave a poller running (refuted). Partial: the pollers alive are the Starts minus the Stops that returned."
  },
  {
   "property": "C88",
   "status": "partial",
   "theorems": [
    "C88_any_options_safe_refuted",
    "C88_safe_partial",
    "C88_exactly_partial"
   ],
   "note": "Violated by the code: an Interval of 0 makes NewTicker panic (refuted). Partial: any positive Interval. A crash is possible exactly with an Interval of 0 or less (C88_exactly_partial)."
  },
  {
   "property": "C89",
   "status": "proved",
   "theorems": [
    "C89_host_cell",
    "C89_time_cell"
   ],
   "note": "All statuses and int64 times."
  },
  {
   "property": "C90",
   "status": "partial",
   "theorems": [
    "C90_defaults_meet_refuted",
    "C90_reached_on_5032_partial"
   ],
   "note": "Violated by the code: healthtop defaults to port 5032, healthd to 5031 (refuted). Partial: healthd configured for 5032 is reached."
  },
  {
   "property": "C91",
   "status": "proved",
   "theorems": [
    "C91_hosts_monitored",
    "C91_every_value_is_a_list"
   ],
   "note": "All strings."
  },
  {
   "property": "C92",
   "status": "partial",
   "theorems": [
    "C92_gauge_number_refuted",
    "C92_not_finite_refuted",
    "C92_gauge_text_partial",
    "C92_short_text"
   ],
   "note": "Violated by the code for NaN and infinite gauges (refuted). Partial: all finite values; for magnitudes below 0.1 the text is strconv's shortest, of which only the documented promise is used (it parses back to the value); C92_short_text shows that an implementation keeps it. Uses the standard library axioms of the real numbers."
  },
  {
   "property": "C93",
   "status": "partial",
   "theorems": [
    "C93_jobs_page_refuted",
    "C93_jobs_page_partial",
    "C93_hidden_exactly_partial"
   ],
   "note": "Violated by the code: healthtop ignores the status code and takes the error page for an empty list of jobs (refuted with two completions of 134861366 and 134861367 ns). Partial: rows of finite numbers with valid names without percent signs arrive unchanged. The page is refused exactly when a number of a row is not finite, and then shows no job (C93_hidden_exactly_partial)."
  },
  {
   "property": "C94",
   "status": "partial",
   "theorems": [
    "C94_hosts_page_refuted",
    "C94_page_lost_refuted",
    "C94_hosts_page_partial"
   ],
   "note": "Violated by the code: a percent sign in an error text is taken for a format (refuted), and the error of a host with a malformed address makes the whole page unreadable, so that no host is shown any more (C94_page_lost_refuted). Partial: statuses with valid texts without percent signs arrive unchanged."
  },
  {
   "property": "C95",
   "status": "proved",
   "theorems": [
    "C95_document",
    "C95_ordinary_sizes",
    "C95_same_requests",
    "C95_default_names"
   ],
   "note": "Finite summaries: durations that are int64s and gauges up to 10^100 are shown to have them; otherwise nothing is sent (C84). The rendering of floats is any that reads back the same float."
  },
  {
   "property": "C96",
   "status": "proved",
   "theorems": [
    "C96_document",
    "C96_any_text",
    "C96_nothing_lost",
    "C96_failures_reported"
   ],
   "note": "Text that is not UTF-8 is replaced as encoding/json does; then the document is the report up to the bytes replaced."
  },
  {
   "property": "C97",
   "status": "proved",
   "theorems": [
    "C97_published_is_emitted",
    "C97_finished_interval_exact",
    "C97_heard_is_published",
    "C97_no_crash",
    "C97_answers_can_be_taken",
    "C97_counts_never_go_down"
   ],
   "note": "Assumes (procs_ok) that processes are told apart by identifier and address, that their clocks do not step back, retain >= interval, names in UTF-8 without percent signs, finite gauges, fewer than 2^64 emissions in an interval; one decoded zone; and (kept) that no purge came more than five intervals after the interval. What happens without these is C17, C18, C32-C34, C53-C57. Counts never go down while the answers of each process are taken in order (C97_counts_never_go_down); the example shows that the order matters."
  },
  {
   "property": "C98",
   "status": "proved",
   "theorems": [
    "C98_jobs_page"
   ],
   "note": "Assumptions as for C97, for every published interval. Columns min, max, average and standard deviation are C22, C23, C59, C60."
  },
  {
   "property": "C99",
   "status": "proved",
   "theorems": [
    "C99_counters",
    "C99_timers",
    "C99_after_drain",
    "C99_default_clean"
   ],
   "note": "Datagrams arrive in order and whole. Names may share a counter (C101): the number counts everything emitted under the name. Lines over 1440 bytes are dropped by the sink and excluded; a custom sanitiser must keep the bytes of the protocol out. The timer theorem uses the standard library axioms of the real numbers."
  },
  {
   "property": "C100",
   "status": "partial",
   "theorems": [
    "C100_gauge_last_value_refuted",
    "C100_gauge_last_value_partial",
    "C100_sum_since_partial",
    "C100_sum_partial"
   ],
   "note": "Violated by the code: negative gauges are sent as such, and the protocol reads a signed value as a change (refuted: -5 twice gives -10). Partial: the last value is finite and not negative. Proved what is shown for any finite values: the last that is not negative plus all negative ones after it."
  },
  {
   "property": "C101",
   "status": "partial",
   "theorems": [
    "C101_names_differ_refuted",
    "C101_lines_have_series",
    "C101_names_differ_partial",
    "C101_counts_series_partial",
    "C101_durations_series_partial",
    "C101_gauged_series_partial"
   ],
   "note": "Violated by the code: a dot or a sanitised byte in a name, an event called error or like a completion status (refuted). Partial: plain names with the default sanitiser; with them the counters, timers and gauges are exactly those of the series."
  },
  {
   "property": "C102",
   "status": "proved",
   "theorems": [
    "C102_handlers_cannot_interfere",
    "C102_same_outcome",
    "C102_snapshot_is_new",
    "C102_loop_leaves_handlers_alone",
    "C102_snapshot_stays"
   ],
   "note": "Pointer-level model of the loop: responses, purges, recalculations and reads, with other goroutines writing arbitrary values into what they hold in between; the state is that of the value model of C52-C58, including crashes. The host statuses are copied by value and are not in the heap model."
  },
  {
   "property": "C103",
   "status": "partial",
   "theorems": [
    "C103_newest_page_shown_refuted",
    "C103_requests_pile_up_refuted",
    "C103_newest_page_shown_partial",
    "C103_one_request_partial",
    "C103_each_answer_once",
    "C103_status"
   ],
   "note": "Violated by the code: http.Get has no time limit and a poll is started every second, so polls can overlap: an older page can replace a newer one (refuted), and requests pile up while healthd hangs (refuted). Partial: every poll is over when the next one starts. Unconditional: each answer is received at most once."
  },
  {
   "property": "C104",
   "status": "partial",
   "theorems": [
    "C104_row_per_job_refuted",
    "C104_jobs_table_partial",
    "C104_hosts_table_partial",
    "C104_one_reading",
    "C104_colours",
    "C104_host_colours",
    "C104_null_row_refuted"
   ],
   "note": "Violated by the code: a tab or line break in a name breaks the table, a null row ends the program (refuted; healthd itself sends no nulls). Partial: names, errors and times without control characters, numbers and averages within int64. Colours and uniqueness of reading are unconditional. goterm.Bold and goterm.Color are assumed to put the text between two changes of style."
  },
  {
   "property": "C105",
   "status": "proved",
   "theorems": [
    "C105_each_caller_in_order",
    "C105_nothing_lost_or_added",
    "C105_sinks_run_as_alone",
    "C105_orders_may_differ"
   ],
   "note": "Sinks are attached before the calls. Different sinks may hear different goroutines in different orders (C105_orders_may_differ). Whether a Bugsnag sink finds an error new is part of the calls, for all calls."
  },
  {
   "property": "C106",
   "status": "partial",
   "theorems": [
    "C106_stopped_sink_holds_up_nobody_refuted",
    "C106_any_kind_holds_up_refuted",
    "C106_calls_return_partial"
   ],
   "note": "Violated by the code: a stream calls its sinks one after the other, and a stopped sink with a full queue blocks its caller for good; the sinks after it hear nothing more (refuted with StatsD, and for every kind of sink that has a queue). Partial: while no sink is stopped, all calls of all goroutines can return using the sinks' own steps only."
  },
  {
   "property": "C107",
   "status": "proved",
   "theorems": [
    "C107_statsd_totals",
    "C107_polling_totals"
   ],
   "note": "Assumes a clean sanitiser and lines that fit (StatsD), and a clock that does not go back and retention of all that happened (polling)."
  },
  {
   "property": "C108",
   "status": "proved",
   "theorems": [
    "C108_answers",
    "C108_any_order",
    "C108_other_members",
    "C108_jobs_page",
    "C108_hosts_page"
   ],
   "note": "About encoding/json as the model has it: names are compared up to the case of ASCII letters, and of several members of one object whose names differ only in case the last counts (Go merges repeated objects). Bodies that are no JSON are covered by an Example only: Go's parser also accepts some texts with invalid UTF-8."
  },
  {
   "property": "C109",
   "status": "proved",
   "theorems": [
    "C109_all_processed",
    "C109_room_again",
    "C109_readers_answered",
    "C109_shutdown_returns"
   ],
   "note": "Executions are infinite sequences of the steps of the model; fairness is stated in SFair.v and SLive.v: each case of the select that is ready again and again is chosen again and again, and an answer for a waiting caller is received. What is proved of the aggregator's contents is in C09-C16 and C41-C43."
  },
  {
   "property": "C110",
   "status": "proved",
   "theorems": [
    "C110_all_processed",
    "C110_ticks_deliver",
    "C110_room_again",
    "C110_stop_returns"
   ],
   "note": "Executions are infinite sequences of the steps of the model; fairness is stated in SFair.v and SLive.v: the loop moves when it can, and the ticker's flush command gets into the queue when there is room again and again. Stop is called once and without Drain."
  },
  {
   "property": "C111",
   "status": "partial",
   "theorems": [
    "C111_drain_returns_refuted",
    "C111_drain_returns_partial"
   ],
   "note": "Violated by the code: the loop that drains takes commands until it finds the queue empty, so that callers that keep emitting keep Drain from ever returning, even in a fair execution (refuted, for all options). Partial: Drain returns if from some moment on nothing is put into the queue while it waits."
  },
  {
   "property": "C112",
   "status": "proved",
   "theorems": [
    "C112_flushed_after_taken",
    "C112_stop_returns"
   ],
   "note": "Executions are infinite sequences of the steps of the model; fairness is stated in SFair.v and SLive.v: weak fairness of the three cases of the select."
  },
  {
   "property": "C113",
   "status": "proved",
   "theorems": [
    "C113_all_notified"
   ],
   "note": "Executions are infinite sequences of the steps of the model; fairness is stated in SFair.v and SLive.v: weak fairness of the loop. What a notification sends is C95 and C96."
  },
  {
   "property": "C114",
   "status": "proved",
   "theorems": [
    "C114_answers_taken",
    "C114_requests_answered",
    "C114_recalculated",
    "C114_stop_returns",
    "C114_no_deadlock"
   ],
   "note": "Executions are infinite sequences of the steps of the model; fairness is stated in SLive2.v. Panics and deadlocks are excluded by the statement (they happen: C56, C64)."
  },
  {
   "property": "C115",
   "status": "proved",
   "theorems": [
    "C115_all_return",
    "C115_all_aggregated",
    "C115_all_counted",
    "C115_all_flushed",
    "C115_all_notified"
   ],
   "note": "Executions are infinite sequences of the steps of MProcess.v; fairness is stated in SLive3.v. With a stopped sink calls may never return (C106)."
  },
  {
   "property": "C116",
   "status": "proved",
   "theorems": [
    "C116_queued_is_taken",
    "C116_taken_is_shown",
    "C116_no_crash"
   ],
   "note": "Composes C97 and C114: assumes procs_ok (see C97) and the fairness of SLive2.v. A panic is impossible (C116_no_crash); the deadlock of C64 is excluded by the statement."
  },
  {
   "property": "C117",
   "status": "partial",
   "theorems": [
    "C117_unknown_hosts_refuted",
    "C117_restarted_refuted",
    "C117_same_identifier",
    "C117_told_apart_partial",
    "C117_passes"
   ],
   "note": "Violated by the code: identifiers are host.pid, so a program restarted with the same pid (pid 1 in a container) has the identifier it had, and healthd takes its first answers for ones it knows (same serial number) and never shows what it counted (refuted in a complete execution); hosts whose name cannot be found share one name. Partial: exactly when two identifiers are equal; known hosts with different pids or names are told apart; identifiers pass through JSON unchanged."
  },
  {
   "property": "C118",
   "status": "partial",
   "theorems": [
    "C118_fds_refuted",
    "C118_fds_partial",
    "C118_gauge_partial"
   ],
   "note": "Violated by the code: on linux the descriptor opened to read /proc/self/fd is counted too, and when no descriptor is left there is no gauge; on darwin it is always 0. Partial: exactly one more than open, as long as one more can be opened, and the descriptors are as before."
  },
  {
   "property": "C119",
   "status": "partial",
   "theorems": [
    "C119_notified_twice_refuted",
    "C119_notified_partial"
   ],
   "note": "Violated by the code: the flag Emitted is set after all sinks were told, so two overlapping reports are both notified (refuted). Partial: at most as many notifications as reports that began before one returned, at least one once a report returned; so exactly one if they do not overlap."
  },
  {
   "property": "C120",
   "status": "partial",
   "theorems": [
    "C120_keyvalue_after_report_refuted",
    "C120_stream_keyvalue_refuted",
    "C120_flag_refuted",
    "C120_frames_refuted",
    "C120_compared_refuted",
    "C120_no_race_partial"
   ],
   "note": "Violated by the code: mergedKeyValues hands out the job's own map, which the Bugsnag sink's goroutine reads later, so KeyValue after EventErr races even with a single goroutine; Stream.KeyValue races with emissions; a polling sink's goroutine compares errors with DeepEqual, reading the Emitted flag that EventErr sets after the sinks were told and the frames that Bugsnag's goroutine resolves, so that even one goroutine reporting two errors of the same text and stack races; two Bugsnag sinks resolve the frames of one error. Partial: no race in any execution if streams are set up beforehand, jobs that get key/values, written maps and errors are used by one goroutine each, what an error was reported with gets no more key/values (or the stream has some), an error goes to one Bugsnag sink, and no two errors of the same text and stack to one polling sink. Of a map only its emptiness is modelled, and polling sinks' queues have no bound."
  },
  {
   "property": "C121",
   "status": "proved",
   "theorems": [
    "C121_screen_shows_emitted"
   ],
   "note": "Composes C98 and C104: assumes procs_ok and kept (see C97), rows that are legible (finite numbers, names without control characters), and that goterm puts the text between changes of style. Not claimed of the columns min, max, avg and stddev."
  },
  {
   "property": "C122",
   "status": "proved",
   "theorems": [
    "C122_reports_again",
    "C122_reports_complete",
    "C122_stop_returns",
    "C122_stop_taken"
   ],
   "note": "Executions are infinite sequences of the steps of MRuntime.v that are not panics (C88); fairness is stated in SLive5.v. Without a poller left Stop waits for ever (C87, C88)."
  },
  {
   "property": "C123",
   "status": "partial",
   "theorems": [
    "C123_duration_race_refuted",
    "C123_no_other_race_partial",
    "C123_duration_kept"
   ],
   "note": "Violated by the code: the HTTP handlers read intervalDuration while the loop sets it (healthd.go:240, api.go:136), a data race. Partial: it is the only race, and it is over once the duration is known. Memory is taken in whole objects, and channels have no bound, so that there are more executions than the code has. Errors that healthd reports on its own stream are C120's matter."
  },
  {
   "property": "C124",
   "status": "proved",
   "theorems": [
    "C124_page_duration"
   ],
   "note": "With sequentially consistent memory; see C123 for the race on the duration."
  },
  {
   "property": "C125",
   "status": "partial",
   "theorems": [
    "C125_debouncer_stays_refuted",
    "C125_polls_stay_refuted",
    "C125_polls_end_partial",
    "C125_none_started_partial"
   ],
   "note": "Violated by the code: the debouncer never ends (in every fair execution), and with more than 64 responses outstanding some polls wait for ever for room in the channel nobody reads. Partial: no poll is started any more, and with at most 64 outstanding all polls end. Fairness is stated in SLive6.v."
  },
  {
   "property": "C126",
   "status": "proved",
   "theorems": [
    "C126_requests_received",
    "C126_up_to_date",
    "C126_assumption"
   ],
   "note": "Executions are infinite sequences of the steps of MTopLoop.v; fairness is stated in SLive7.v. C103 says what can go wrong meanwhile: an older page after a newer one, requests piling up."
  },
  {
   "property": "C127",
   "status": "proved",
   "theorems": [
    "C127_on_screen"
   ],
   "note": "Combines C116, C121 and C126 (SLive8.v). Assumes that the published intervals have not been purged (C54), that answers of a process are taken in order, and that the pages are legible (C121). Axioms: those of C97."
  },
  {
   "property": "C128",
   "status": "proved",
   "theorems": [
    "C128_heard_again",
    "C128_pages_up_to_date",
    "C128_one_last"
   ],
   "note": "Fairness of ticks and polls is stated in SLive9.v (asks_fair); that the clock does not read the year 1 is needed for the times of first and last success (C58)."
  },
  {
   "property": "C129",
   "status": "proved",
   "theorems": [
    "C129_hosts_on_screen"
   ],
   "note": "Combines C128, C79, C94, C104 and C126 (SLive9.v). Assumes legible pages: names and errors without percent signs (C94), tabs and newlines (C104)."
  },
  {
   "property": "C130",
   "status": "partial",
   "theorems": [
    "C130_ahead_refuted",
    "C130_zone_refuted",
    "C130_after_purge_partial",
    "C130_between_partial",
    "C130_pending"
   ],
   "note": "The code violates this: intervals of a host whose clock is ahead are kept until their time has come and gone (C130_ahead_refuted), and a page whose times have an offset is held again at every poll (C130_zone_refuted). Proved when all times decode to one location and intervals start on the grid (C15), with as many intervals more as clocks are ahead; what waits for recalculation without conditions. The published intervals are bounded by C53."
  },
  {
   "property": "C131",
   "status": "proved",
   "theorems": [
    "C131_call_on_screen"
   ],
   "note": "Combines C109 (the sink takes every call), C128 (every host is asked again and again) and C127 (SLive10.v). Assumes that the process's sink is not stopped, that its polls succeed from some time on and read the sink after they began, and the assumptions of C127 on pages. Uses the axioms listed for C97 (Coq's real numbers)."
  },
  {
   "property": "C132",
   "status": "partial",
   "theorems": [
    "C132_flusher_stays_refuted",
    "C132_few_flushes_partial",
    "C132_statsd_loop_partial",
    "C132_poll_loop_partial",
    "C132_librato_loop_partial",
    "C132_bugsnag_loop_partial",
    "C132_sink"
   ],
   "note": "The code violates this: the goroutine that turns the StatsD sink's ticks into flushes (statsd_sink.go:159-163) ranges over ticker.C, which Ticker.Stop does not close, so it never ends (C132_flusher_stays_refuted); after the ticker was stopped it does little (C132_few_flushes_partial). The loops of all four sinks have ended when the call returned. C132_sink ties the ticker to the sink of C41-C43 and C110, whose fairness it justifies. healthd: C125; StartServer's goroutine has no way to end at all."
  },
  {
   "property": "C133",
   "status": "proved",
   "theorems": [
    "C133_every_emission_logged",
    "C133_nothing_otherwise",
    "C133_logs_are_the_calls"
   ],
   "note": "The sinks run to the end in the caller: lines and objects as in C44 and C47-C48, from any state reachable by API calls with panics recovered. The text of the clock and the order of map enumerations are given by the environment."
  },
  {
   "property": "C134",
   "status": "partial",
   "theorems": [
    "C134_no_panic_refuted",
    "C134_panics_exactly_partial",
    "C134_without_nil_partial"
   ],
   "note": "The code violates this: EventErr(nil), or the report of an error made from nil, panics in the caller if a WriterSink is attached (C134_no_panic_refuted). Proved: it panics exactly then, and an application that never hands over nil never panics."
  },
  {
   "property": "C135",
   "status": "partial",
   "theorems": [
    "C135_others_told_refuted",
    "C135_who_is_told_partial",
    "C135_run_reports_panics_partial"
   ],
   "note": "The code violates this: sinks attached behind the first WriterSink are not told of an error without text, and the error is not marked as emitted. Proved: exactly the sinks before it are told, and write what they should; inside Run the panic itself is reported to every sink and Run returns."
  },
  {
   "property": "C136",
   "status": "proved",
   "theorems": [
    "C136_visits",
    "C136_any_clock",
    "C136_event_totals",
    "C136_nothing_lost",
    "C136_sums_of_squares"
   ],
   "note": "For 0 < interval <= retain (otherwise C17). An interval the clock comes back to is shown as two entries (C18), and a visit counts against the retention even if its interval was shown before."
  },
  {
   "property": "C137",
   "status": "partial",
   "theorems": [
    "C137_stepped_back_refuted",
    "C137_emitted_during_visits",
    "C137_one_visit_partial",
    "C137_visited_once_partial"
   ],
   "note": "The code violates this: an answer lists an interval once per visit of the clock, and healthd keeps one entry per interval and process, so the published count has the emissions of one visit only (C137_stepped_back_refuted); when a later visit has as many emissions as the one held, not even the later one is taken. Proved: exactly which visit is taken, and that nothing is lost when no interval was visited twice."
  }
 ]
}