{
 "claims": [
  {
   "property": "C01",
   "status": "proved",
   "theorems": [
    "C01_tag_part_roundtrip",
    "C01_measurement_roundtrip",
    "C01_escape_exact"
   ],
   "note": "Exact characterisation (iff) for both escapers."
  },
  {
   "property": "C02",
   "status": "proved",
   "theorems": [
    "C02_token_lossless",
    "C02_token_one_byte",
    "C02_token_unescapes",
    "C02_token_unique"
   ],
   "note": "Full; also uniqueness of the token and the one-byte special case."
  },
  {
   "property": "C03",
   "status": "proved",
   "theorems": [
    "C03_parse_render",
    "C03_render_is_code",
    "C03_parse_terminates"
   ],
   "note": "Full, for every tag list including the empty one."
  },
  {
   "property": "C04",
   "status": "partial",
   "theorems": [
    "C04_quoted_roundtrip_iff",
    "C04_quoted_roundtrip_refuted"
   ],
   "note": "False of the code as stated (values ending in a backslash, or mixing a quote with an escaped-looking pair); the exact set of values that survive is proved as an iff."
  },
  {
   "property": "C05",
   "status": "partial",
   "theorems": [
    "C05_ToInt_exact_partial",
    "C05_ToInt_short",
    "C05_ToInt_rejects_garbage",
    "C05_ToInt_wraps",
    "C05_ToInt_refuted",
    "C05_format_parse"
   ],
   "note": "False of the code: the accumulator wraps at 2^64 (ToInt \"18446744073709551617\" = 1). Exact below 2^64, and the exact wrapped behaviour for every length."
  },
  {
   "property": "C06",
   "status": "proved",
   "theorems": [
    "C06_extract_timestamp",
    "C06_extract_timestamp_none"
   ],
   "note": ""
  },
  {
   "property": "C07",
   "status": "proved",
   "theorems": [
    "C07_nanos_agrees",
    "C07_nanos_exact",
    "C07_nanos_full_length"
   ],
   "note": ""
  },
  {
   "property": "C08",
   "status": "proved",
   "theorems": [
    "C08_safe_calc_time",
    "C08_every_precision_has_a_unit"
   ],
   "note": ""
  },
  {
   "property": "C09",
   "status": "proved",
   "theorems": [
    "C09_precision_rewrite",
    "C09_precision_unchanged"
   ],
   "note": ""
  },
  {
   "property": "C10",
   "status": "proved",
   "theorems": [
    "C10_split_lossless",
    "C10_next",
    "C10_zero_chunk_size_spins"
   ],
   "note": "Full for chunkSize >= 1; with chunkSize 0 the loop provably spins (not used by the code base)."
  },
  {
   "property": "C11",
   "status": "partial",
   "theorems": [
    "C11_refuted",
    "C11_size_partial"
   ],
   "note": "False of the code at every chunk size (so a 1 MB + 1 byte NATS message is possible); proved: at most one byte more, only for a chunk ending in the newline at index chunkSize."
  },
  {
   "property": "C12",
   "status": "proved",
   "theorems": [
    "C12_lines_kept",
    "C12_lines_meaning"
   ],
   "note": "Full."
  },
  {
   "property": "C13",
   "status": "proved",
   "theorems": [
    "C13_batch_history",
    "C13_read_complete"
   ],
   "note": "Full, for all histories and reader schedules."
  },
  {
   "property": "C14",
   "status": "proved",
   "theorems": [
    "C14_batch_age"
   ],
   "note": "Full."
  },
  {
   "property": "C15",
   "status": "partial",
   "theorems": [
    "C15_refuted",
    "C15_room_iff_partial",
    "C15_udp_listener_has_room"
   ],
   "note": "False of Batch for capacities 32768..65535; exact condition proved (iff), and proved for every state of a UDP listener."
  },
  {
   "property": "C16",
   "status": "proved",
   "theorems": [
    "C16_udp_conservation",
    "C16_arrived_meaning"
   ],
   "note": "Full, UDP loop with any read results, clocks and publish failures."
  },
  {
   "property": "C17",
   "status": "proved",
   "theorems": [
    "C17_udp_messages"
   ],
   "note": "Full for datagrams of at most 65536 bytes (UDP maximum is 65507)."
  },
  {
   "property": "C18",
   "status": "proved",
   "theorems": [
    "C18_udp_limits",
    "C18_udp_counters",
    "C18_udp_grouping",
    "C18_http_limits"
   ],
   "note": "Full: equality with an independent reference grouping, counters, and limits; plus the HTTP limits."
  },
  {
   "property": "C19",
   "status": "proved",
   "theorems": [
    "C19_http_history",
    "C19_http_received"
   ],
   "note": "Full at the granularity of lock-protected sections; ReadFrom happens under the lock."
  },
  {
   "property": "C20",
   "status": "partial",
   "theorems": [
    "C20_exact_partial",
    "C20_refuted",
    "C20_http_lines_partial"
   ],
   "note": "False of the code when a body lacks the final newline; proved when bodies end in a newline, and exactly (iff): lines stay apart iff every unit followed by another in its batch ends in a newline."
  },
  {
   "property": "C21",
   "status": "partial",
   "theorems": [
    "C21_http_age_partial",
    "C21_slow_client_refuted",
    "C21_lock_age_partial"
   ],
   "note": "False as stated: a nanosecond body is read from the network under the mutex, so a stalled client stops the age goroutine (C21_slow_client_refuted). Proved: the bound with slack = the longest wait of that goroutine for the mutex and the processor, in the lock-level model and in the Read-call-level model."
  },
  {
   "property": "C22",
   "status": "partial",
   "theorems": [
    "C22_refuted",
    "C22_stop_loses_only_pending_partial",
    "C22_stop_after_idle_partial"
   ],
   "note": "False of the code; proved: exactly the pending group is lost, and nothing after an idle period of batch_max_age."
  },
  {
   "property": "C23",
   "status": "proved",
   "theorems": [
    "C23_subset_of"
   ],
   "note": "Full (iff)."
  },
  {
   "property": "C24",
   "status": "proved",
   "theorems": [
    "C24_first_match",
    "C24_first_match_unique",
    "C24_lookup_raw"
   ],
   "note": "Full; for raw lines stated against the ideal meaning of rules, under the no-hash-collision condition of C25."
  },
  {
   "property": "C25",
   "status": "partial",
   "theorems": [
    "C25_refuted",
    "C25_basic_partial",
    "C25_one_byte_apart_partial",
    "C25_common_ending_partial"
   ],
   "note": "False of the code (two real-looking names with the same 32-bit FNV-1 hash). Proved: the right name always matches; names one byte apart never collide."
  },
  {
   "property": "C26",
   "status": "proved",
   "theorems": [
    "C26_sorted_unchanged",
    "C26_data_preserved"
   ],
   "note": "Full for lines with a field section and parts that survive the line protocol; the two excluded shapes are shown to be damaged."
  },
  {
   "property": "C27",
   "status": "partial",
   "theorems": [
    "C27_refuted",
    "C27_rules_see_the_line_partial",
    "C27_exact_partial",
    "C27_equally_long_partial"
   ],
   "note": "False of the code: SortTags overwrites the memory the tags still point into. Proved for lines not rewritten in place, and for rule sets without tags rules; for lines without backslashes that are rewritten, C27_exact_partial says exactly what the rules see (the bytes now standing where each tag stood), and C27_equally_long_partial that the right rule is chosen if all keys are equally long and all values are."
  },
  {
   "property": "C28",
   "status": "proved",
   "theorems": [
    "C28_routing",
    "C28_right_subject",
    "C28_nothing_left_behind"
   ],
   "note": "Full: equality of the published messages with a reference, for every clock value for which now +- max_time_delta does not overflow int64. C28_right_subject adds the correct choice of the rule for lines not affected by C25/C27."
  },
  {
   "property": "C29",
   "status": "proved",
   "theorems": [
    "C29_counters",
    "C29_sums"
   ],
   "note": "Full."
  },
  {
   "property": "C30",
   "status": "partial",
   "theorems": [
    "C30_refuted",
    "C30_window_partial",
    "C30_full_timestamps_recognised",
    "C30_one_time_per_line"
   ],
   "note": "False of the code as stated. Proved exactly which timestamps are recognised and that for those the open window is enforced."
  },
  {
   "property": "C31",
   "status": "proved",
   "theorems": [
    "C31_pool",
    "C31_at_every_moment",
    "C31_progress"
   ],
   "note": "Full at the granularity of counter increments and publishes; any number of workers; Stop included (queued messages are then lost, visible in C31_at_every_moment)."
  },
  {
   "property": "C32",
   "status": "proved",
   "theorems": [
    "C32_buckets",
    "C32_stamp_unique",
    "C32_period_exists",
    "C32_aligned"
   ],
   "note": "Full, for every bucket implementation; time is an unbounded integer of nanoseconds (Go's Truncate relative to year 1 is modelled)."
  },
  {
   "property": "C33",
   "status": "proved",
   "theorems": [
    "C33_in_order_once",
    "C33_timer"
   ],
   "note": "Full."
  },
  {
   "property": "C34",
   "status": "partial",
   "theorems": [
    "C34_refuted",
    "C34_overflow_refuted",
    "C34_bounded_partial",
    "C34_constant_partial",
    "C34_prints_average_partial"
   ],
   "note": "False of the code as stated: integer division per step loses up to 1/2 per value (0..n averages to 0) and differences can overflow. Proved: the sharp bound (n-1)/2, staying inside the window of the values, and that the printed number is that running average."
  },
  {
   "property": "C35",
   "status": "proved",
   "theorems": [
    "C35_last_value"
   ],
   "note": "Full."
  },
  {
   "property": "C36",
   "status": "partial",
   "theorems": [
    "C36_refuted",
    "C36_new_series_partial",
    "C36_other_series_partial",
    "C36_single_field_partial",
    "C36_field_by_field_partial",
    "C36_torn_partial"
   ],
   "note": "False of the code: a bad field leaves the fields before it applied. Proved for new series, other series and single-field lines. Exact effect: a line of well-formed fields acts like one line per field (C36_field_by_field_partial), and a line torn off in a field name acts like the fields before (C36_torn_partial)."
  },
  {
   "property": "C37",
   "status": "proved",
   "theorems": [
    "C37_output",
    "C37_output_any_lines"
   ],
   "note": "Full, for any map iteration order and any correct sort; floating point operations are parameters. A second theorem covers arbitrary malformed input lines."
  },
  {
   "property": "C38",
   "status": "partial",
   "theorems": [
    "C38_refuted",
    "C38_no_fields_refuted",
    "C38_consistent_partial",
    "C38_settled_partial",
    "C38_field_iff"
   ],
   "note": "False of the code when a boolean field ends as a string, or for field-less lines. Proved when fields keep their type, and under the exact per-field condition (iff): the only bad case is a field that starts as a boolean and ends as a string that cannot stand without quotes."
  },
  {
   "property": "C39",
   "status": "proved",
   "theorems": [
    "C39_bounded",
    "C39_bounded_in_writer"
   ],
   "note": "Full, for the retry goroutine alone and inside the writer."
  },
  {
   "property": "C40",
   "status": "proved",
   "theorems": [
    "C40_conservation",
    "C40_writer",
    "C40_no_retries"
   ],
   "note": "Full: the batches handed in are a permutation of queued/delivered/rejected/expired/evicted; in the writer additionally FIFO hand-over and no duplicates."
  },
  {
   "property": "C41",
   "status": "proved",
   "theorems": [
    "C41_interval_and_ttl",
    "C41_in_writer",
    "C41_armed"
   ],
   "note": "Full: interval measured from the end of an attempt (stronger than start to start), TTL, expiry only after the TTL, and the timer is armed whenever something waits."
  },
  {
   "property": "C42",
   "status": "proved",
   "theorems": [
    "C42_removeOldest",
    "C42_evicts_oldest",
    "C42_in_writer"
   ],
   "note": "Full: position-exact for the queue operation, and as a statement about histories."
  },
  {
   "property": "C43",
   "status": "partial",
   "theorems": [
    "C43_classes",
    "C43_never_again_partial",
    "C43_in_writer_partial",
    "C43_first_attempt_refuted"
   ],
   "note": "Classification proved exactly; never-again proved for the retry goroutine. The remaining claim (4xx on the first POST is not retried) is refuted for every 4xx code."
  },
  {
   "property": "C44",
   "status": "proved",
   "theorems": [
    "C44_lossless",
    "C44_whole_lines",
    "C44_accepted"
   ],
   "note": "Full, including whole lines under the stated length condition and the meaning of the rules."
  },
  {
   "property": "C45",
   "status": "proved",
   "theorems": [
    "C45_can_move",
    "C45_handover",
    "C45_can_stop"
   ],
   "note": "Absence of deadlock: a move is always possible, a hand-over and a shutdown can be forced within a bounded number of moves whatever the database answers. Fairness of the scheduler is not modelled."
  },
  {
   "property": "C46",
   "status": "partial",
   "theorems": [
    "C46_counts_partial",
    "C46_refuted"
   ],
   "note": "What the counters do count is proved exactly; the property as stated is refuted for every n."
  },
  {
   "property": "C47",
   "status": "proved",
   "theorems": [
    "C47_linearizable",
    "C47_inc",
    "C47_max",
    "C47_max_returns",
    "C47_monotone",
    "C47_no_panic",
    "C47_unknown_panics",
    "C47_progress",
    "C47_solo_progress"
   ],
   "note": "Full: linearizability of the atomic-step model, totals, monotonicity, absence of panics for known names, lock freedom and obstruction freedom."
  },
  {
   "property": "C48",
   "status": "proved",
   "theorems": [
    "C48_round_trip",
    "C48_parser_accepts",
    "C48_parser_reads",
    "C48_unambiguous"
   ],
   "note": "Full; additionally the accepted language is characterised exactly and is unambiguous."
  },
  {
   "property": "C49",
   "status": "partial",
   "theorems": [
    "C49_refuted",
    "C49_panics_iff",
    "C49_message_kills_iff",
    "C49_history_partial",
    "C49_no_brace_partial",
    "C49_code",
    "C49_code_message",
    "C49_code_model"
   ],
   "note": "Refuted; the panicking lines and messages are characterised exactly, absence of panics proved for all others. The same is proved of the statements of parse.go with every index and slice expression checked (C49_code, C49_code_message)."
  },
  {
   "property": "C50",
   "status": "partial",
   "theorems": [
    "C50_refuted",
    "C50_sorted_labels_partial",
    "C50_first_get_partial",
    "C50_accepted_total",
    "C50_accepted_unique",
    "C50_answer_unique",
    "C50_identity_injective",
    "C50_rendering_in_place",
    "C50_every_answer_partial",
    "C50_unharmed_partial"
   ],
   "note": "Refuted for lines whose labels arrive unsorted (rendering overwrites the memory of the labels); proved for sorted labels and for the first GET; and for every history and every GET (C50_every_answer_partial) how far the damage goes: always one line per metric in order, with the right name, value, time and number of labels, and right labels whenever they came in order or the metric was reported since the last GET."
  },
  {
   "property": "C51",
   "status": "proved",
   "theorems": [
    "C51_valid_iff",
    "C51_reason"
   ],
   "note": "Full: acceptance characterised as an iff, and every reported reason is true of the configuration."
  },
  {
   "property": "C52",
   "status": "partial",
   "theorems": [
    "C52_rules",
    "C52_panics",
    "C52_filter_partial",
    "C52_filter_refuted",
    "C52_writer_refuted"
   ],
   "note": "False of the code: regular expressions are compiled with MustCompile, and writer validation does not check tag pairs. Proved: exact conditions (iff) for success and for a panic, and that a validated filter panics only on an expression that does not compile."
  },
  {
   "property": "C53",
   "status": "partial",
   "theorems": [
    "C53_load",
    "C53_determined",
    "C53_decodes",
    "C53_rules_partial",
    "C53_rules_refuted"
   ],
   "note": "Proved as an iff for every option, for any TOML decoder that decodes rules into an empty list as expected. With both files setting rules, the library merges them position by position (from knowledge of BurntSushi/toml 0.3.1): shown to give neither file's rules."
  },
  {
   "property": "C54",
   "status": "partial",
   "theorems": [
    "C54_ready_means",
    "C54_up",
    "C54_down",
    "C54_spawned_up",
    "C54_spawned_down_partial",
    "C54_late_ready_refuted",
    "C54_waited",
    "C54_unwaited",
    "C54_alive",
    "C54_closed",
    "C54_failed_partial",
    "C54_failed_refuted"
   ],
   "note": "Proved for filter, downsampler, writer. False for listener, HTTP listener and monitor: their goroutine can report ready after Stop cleared it; and a listener that fails early leaves its probe server alive."
  },
  {
   "property": "C55",
   "status": "proved",
   "theorems": [
    "C55_round_up"
   ],
   "note": "Full."
  },
  {
   "property": "C56",
   "status": "proved",
   "theorems": [
    "C56_lines",
    "C56_unchanged",
    "C56_acknowledged",
    "C56_order",
    "C56_order_unchanged"
   ],
   "note": "Full composition of the listener, filter and writer models; NATS delivery is a hypothesis (it is outside the repository)."
  },
  {
   "property": "C57",
   "status": "proved",
   "theorems": [
    "C57_accounting"
   ],
   "note": "Full, over the bucket contents proved in C32/C33 and texts in C37."
  },
  {
   "property": "C58",
   "status": "proved",
   "theorems": [
    "C58_fair",
    "C58_in_writer"
   ],
   "note": "Full."
  },
  {
   "property": "C59",
   "status": "proved",
   "theorems": [
    "C59_flush_bound"
   ],
   "note": "Full."
  },
  {
   "property": "C60",
   "status": "partial",
   "theorems": [
    "C60_accounting",
    "C60_stop_loses_refuted"
   ],
   "note": "Accounting proved; 'Stop loses nothing' refuted."
  },
  {
   "property": "C61",
   "status": "proved",
   "theorems": [
    "C61_deployment",
    "C61_report_arrives"
   ],
   "note": "Full."
  },
  {
   "property": "C62",
   "status": "proved",
   "theorems": [
    "C62_filter_downsampler",
    "C62_writer"
   ],
   "note": "Full; for the writer under the fact that 288 bytes is a size class of Go's allocator (hypothesis on the parameter roundcap)."
  },
  {
   "property": "C63",
   "status": "partial",
   "theorems": [
    "C63_mode",
    "C63_workers_partial",
    "C63_refuted"
   ],
   "note": "False of the code; the exact conditions are proved (iff)."
  },
  {
   "property": "C64",
   "status": "proved",
   "theorems": [
    "C64_name",
    "C64_name_no_extension"
   ],
   "note": "Full."
  },
  {
   "property": "C65",
   "status": "proved",
   "theorems": [
    "C65_batch_size"
   ],
   "note": "Full."
  },
  {
   "property": "C66",
   "status": "proved",
   "theorems": [
    "C66_average",
    "C66_constant",
    "C66_not_finite",
    "C66_overflow"
   ],
   "note": "IEEE 754 binary64 from Flocq; rests on the standard library's axioms of the real numbers, functional extensionality and Classical_Prop.classic. strconv.ParseFloat and AppendFloat are parameters."
  },
  {
   "property": "C67",
   "status": "proved",
   "theorems": [
    "C67_stop_ends",
    "C67_whole_messages"
   ],
   "note": "Proved for the labelled transition system of FilterWorker.v; the measure argument covers every scheduler. The 30-second limit of waiting on the NATS side (Unsubscribe, drain) is outside the model: the hypothesis is that no message arrives any more."
  },
  {
   "property": "C68",
   "status": "partial",
   "theorems": [
    "C68_refuted",
    "C68_disconnect_refuted",
    "C68_acknowledged_partial"
   ],
   "note": "False: with a precision other than ns a line of 64 KB makes the scanner stop and the request is still answered 204; and a body cut off by a network error is acknowledged internally and its half line is joined to another client's line. Proved for readable bodies under every schedule, with the exact content in the other cases."
  },
  {
   "property": "C69",
   "status": "partial",
   "theorems": [
    "C69_refuted",
    "C69_fate_partial",
    "C69_drained_partial"
   ],
   "note": "False at Stop: the three open buckets are dropped. Proved: exactly the lines of the three open periods are missing, and three more turns after the ends of the next periods emit everything accepted."
  },
  {
   "property": "C70",
   "status": "proved",
   "theorems": [
    "C70_averages",
    "C70_written"
   ],
   "note": "Composition of C33, C37, C57 and C44. Hypotheses: the lines are good points (C37), end times fit int64, the writer has no rules and receives the downsampler's messages in order (NATS delivery)."
  },
  {
   "property": "C71",
   "status": "partial",
   "theorems": [
    "C71_refuted",
    "C71_twice_partial",
    "C71_same_partial"
   ],
   "note": "False: sorting the tags of a line rewrites it with all special bytes escaped, an unescaped = in a value grows by one byte. Proved: at most twice the size; no larger when lines are in order or canonical."
  },
  {
   "property": "C72",
   "status": "partial",
   "theorems": [
    "C72_refuted",
    "C72_verbatim_partial"
   ],
   "note": "False: fmt.Printf(line) treats the line as a format string. Proved for messages without percent sign. fmt.Printf is a parameter constrained by its documentation."
  },
  {
   "property": "C73",
   "status": "partial",
   "theorems": [
    "C73_refuted",
    "C73_not_well_formed_refuted",
    "C73_accepted_partial",
    "C73_rejected_partial",
    "C73_well_formed_partial"
   ],
   "note": "False: a tag without value (cpu,a=,b=c) is accepted and swallows the next tag; a leading delimiter is accepted as part of a name. Proved: the exact language accepted (both directions) and its contents; every well-formed line is accepted with the right contents."
  },
  {
   "property": "C74",
   "status": "partial",
   "theorems": [
    "C74_refuted",
    "C74_structure_partial",
    "C74_new_series_partial",
    "C74_well_formed_partial"
   ],
   "note": "False: any byte after a quoted value stands for a comma, and an unquoted value may begin with a comma. Proved: exact language, values returned, well-formed sections are accepted."
  },
  {
   "property": "C75",
   "status": "partial",
   "theorems": [
    "C75_shown_iff_partial",
    "C75_last_shown",
    "C75_refuted"
   ],
   "note": "False if two rules have the same subject (their lines have the same labels, the last one wins). Proved exactly: every item is shown iff items sharing a label share their count; in all cases the last item of a label is shown, in the only line with these labels."
  },
  {
   "property": "C76",
   "status": "proved",
   "theorems": [
    "C76_lines",
    "C76_unchanged",
    "C76_stored"
   ],
   "note": "NATS delivery (every message to each lone subscription and to one member of each queue group, in any order) is part of the model's broker; the cluster is observed at rest."
  },
  {
   "property": "C77",
   "status": "partial",
   "theorems": [
    "C77_circulates_refuted",
    "C77_loop_refuted",
    "C77_twice_refuted",
    "C77_handled_once_partial",
    "C77_wildcard_refuted"
   ],
   "note": "False: validation accepts a filter that publishes on the subject it reads (a line then circulates for ever) and a writer that lists a subject twice. Proved: once each, for any topology, when no filter writes to its input and subjects are distinct."
  },
  {
   "property": "C78",
   "status": "partial",
   "theorems": [
    "C78_database_partial",
    "C78_escaped_name",
    "C78_database_refuted",
    "C78_login_partial",
    "C78_login_refuted",
    "C78_anonymous"
   ],
   "note": "False: the database name is put into the URL unescaped. Proved: exactly which names arrive (none of # & ; % + space, control bytes) and exactly which user names (no colon). Go's net/url and Basic Auth are modelled from knowledge of the library."
  },
  {
   "property": "C79",
   "status": "partial",
   "theorems": [
    "C79_atomic",
    "C79_stalled_refuted",
    "C79_case_refuted",
    "C79_converted_partial"
   ],
   "note": "False: refuted for nanosecond bodies (stalled reader holds the mutex: nothing published, batched or acknowledged). Proved: holds when all bodies are in other precisions; and the Read-call-level model refines the lock-level model used for C19-C21 and C68."
  },
  {
   "property": "C80",
   "status": "partial",
   "theorems": [
    "C80_start_iff",
    "C80_running",
    "C80_clean_partial",
    "C80_listener_partial",
    "C80_http_listener_partial",
    "C80_listener_refuted"
   ],
   "note": "Proved for filter, downsampler, writer, monitor; for the listeners what exactly is left is proved, and the full claim refuted. That goroutines return after close(stop) is taken from C45/C67 and the select loops; goroutines inside the NATS library count as part of the connection."
  },
  {
   "property": "C81",
   "status": "partial",
   "theorems": [
    "C81_wider_partial",
    "C81_unstamped_partial",
    "C81_overflow_refuted",
    "C81_config_refuted"
   ],
   "note": "Proved for every max_time_delta with 0 < delta <= MaxInt64 - now; outside that range all lines without timestamp (and, above it, all lines) are rejected: refuted, with configurations that are accepted."
  },
  {
   "property": "C82",
   "status": "proved",
   "theorems": [
    "C82_conservation",
    "C82_subscription",
    "C82_dropped_iff",
    "C82_workers",
    "C82_serves"
   ],
   "note": "Whole writer: subscriptions with pending limits (nats.go 1.10 client modelled from knowledge), jobs channel, any number of workers with their retry goroutines; each worker is proved to be a run of the single-worker model, so C39-C46 and C58-C60 hold for the pool."
  },
  {
   "property": "C83",
   "status": "partial",
   "theorems": [
    "C83_in_order_partial",
    "C83_two_workers_refuted",
    "C83_retry_refuted"
   ],
   "note": "False with two workers, and with one worker after a failed write (both shown by runs). Proved: with one subject and one worker the first attempts are in arrival order."
  },
  {
   "property": "C84",
   "status": "partial",
   "theorems": [
    "C84_room_partial",
    "C84_callback_leak_refuted"
   ],
   "note": "False: with the 1024-message queue full at Stop the callback blocks for ever (for every message and configuration). Proved: exact condition (room in the queue)."
  },
  {
   "property": "C85",
   "status": "proved",
   "theorems": [
    "C85_filter",
    "C85_filter_done",
    "C85_downsampler"
   ],
   "note": "Composes the NATS subscription model of C82 with the filter pool of C28/C31 and with the downsampler worker of C32-C38."
  },
  {
   "property": "C86",
   "status": "proved",
   "theorems": [
    "C86_first_filter",
    "C86_second_filter"
   ],
   "note": "Composition of the filter model with itself; shows where the tag-rule defect of C27 can and cannot occur."
  },
  {
   "property": "C87",
   "status": "proved",
   "theorems": [
    "C87_starts_iff",
    "C87_dropped_iff",
    "C87_bound",
    "C87_too_large"
   ],
   "note": "SetPendingLimits and the client's accounting are modelled from knowledge of nats.go v1.10.0; the default limits that hold for the moment between Subscribe and SetPendingLimits are not modelled."
  },
  {
   "property": "C88",
   "status": "proved",
   "theorems": [
    "C88_at_most_once",
    "C88_unchanged",
    "C88_listener_killed"
   ],
   "note": "A kill is the end of a component's history at any step of the model (the program never calls Stop); NATS is taken to deliver each message to at most one filter and one writer of these subjects. UDP listeners. Acknowledged means answered with success: a request that InfluxDB carried out but answered too late, or not before the kill, and that is retried, is stored twice, outside the model's view."
  },
  {
   "property": "C89",
   "status": "proved",
   "theorems": [
    "C89_content",
    "C89_nothing_else",
    "C89_honest",
    "C89_needs_dates",
    "C89_needs_consistency"
   ],
   "note": "How InfluxDB reads a line is a parameter; last write wins per key (series, field, time stamp) is InfluxDB's documented behaviour. C89_needs_dates and C89_needs_consistency show that both conditions on the lines are needed."
  },
  {
   "property": "C90",
   "status": "proved",
   "theorems": [
    "C90_runs",
    "C90_crashes",
    "C90_otherwise"
   ],
   "note": "Composes the models behind C51-C53, C63, C80 and C87. What ends a running component later (log.Fatal when the HTTP port of a listener or monitor is in use) is not part of it."
  },
  {
   "property": "C91",
   "status": "partial",
   "theorems": [
    "C91_costs_partial",
    "C91_exact",
    "C91_speed_refuted",
    "C91_reads_back"
   ],
   "note": "False for metrics where more is better: findProblems looks at the sign of the delta only (C91_speed_refuted). benchstat (its delta column) is modelled from knowledge of golang.org/x/perf; ParseFloat is a parameter that reads such numbers back; the limit is taken in hundredths of a percent."
  },
  {
   "property": "C92",
   "status": "proved",
   "theorems": [
    "C92_udp_listener",
    "C92_http_listener",
    "C92_writer",
    "C92_pipeline"
   ],
   "note": "The UDP listener checks after each read, at least once a second because of the read deadline; the writer wakes at least once a second when idle; both facts about Go timers are not modelled, the statements are about the moment of a check. The pipeline theorem takes delivery by NATS as hypothesis (see C56)."
  },
  {
   "property": "C93",
   "status": "partial",
   "theorems": [
    "C93_age_checks",
    "C93_first_check",
    "C93_reports",
    "C93_refuted"
   ],
   "note": "False when batch_max_age or stats_interval is zero (C93_refuted): such values pass validation and the loop runs without pause. For other values the bounds are proved."
  },
  {
   "property": "C94",
   "status": "proved",
   "theorems": [
    "C94_point",
    "C94_point_agree",
    "C94_duration",
    "C94_size",
    "C94_size_bare",
    "C94_duration_bare",
    "C94_units_agree"
   ],
   "note": "time.ParseDuration (Go 1.15) and datasize.ByteSize.UnmarshalText are modelled from knowledge, they are not in the repository. Durations with decimals are covered by C94_point (float64 arithmetic, Flocq) when the unit is divisible by the last decimal place; finer decimals are outside the theorems."
  },
  {
   "property": "C95",
   "status": "partial",
   "theorems": [
    "C95_same_meaning",
    "C95_accepted_partial",
    "C95_refuted",
    "C95_back_partial"
   ],
   "note": "Refuted for tags rules (C95_refuted): every writer refuses a complete tags rule; one with a meaningless 'match' is accepted. C95_accepted_partial and C95_back_partial give the exact condition, C95_same_meaning that accepted rules mean the same."
  },
  {
   "property": "C96",
   "status": "partial",
   "theorems": [
    "C96_refuted",
    "C96_exact_partial",
    "C96_delivered_partial",
    "C96_requests",
    "C96_next_request"
   ],
   "note": "http.Client.Do (net/http, Go 1.15) is modelled from knowledge: redirectBehavior, the limit of ten requests, missing and unreadable Location. The other writer properties take the final answer as given."
  },
  {
   "property": "C97",
   "status": "partial",
   "theorems": [
    "C97_exact_partial",
    "C97_reasonable_partial",
    "C97_chunks",
    "C97_refuted"
   ],
   "note": "Refuted (C97_refuted); the exact condition is proved. runtime.makechan is modelled from knowledge of Go 1.15 on linux/amd64; running out of memory below its limit is not modelled."
  },
  {
   "property": "C98",
   "status": "proved",
   "theorems": [
    "C98_lines",
    "C98_chunking",
    "C98_failed",
    "C98_progress",
    "C98_model",
    "C98_boundary",
    "C98_read_errors",
    "C98_no_progress",
    "C98_patience",
    "C98_success",
    "C98_split"
   ],
   "note": "bufio.Scanner is modelled Read call by Read call from the Go standard library source; the request model of Listener.v is shown to start with exactly the scanner's lines (C98_model). C98_boundary: a last line of exactly 65536 bytes without newline is accepted or refused depending on when the network reports the end of the body."
  },
  {
   "property": "C99",
   "status": "partial",
   "theorems": [
    "C99_matching",
    "C99_refuted",
    "C99_average_refuted",
    "C99_exact_partial",
    "C99_literal_partial"
   ],
   "note": "Refuted: subjects are passed to NATS unchecked; a downsampler reading spout.* with suffix -archive gets its own output. C99_refuted: one line is published again in every later period, for any number of periods; C99_average_refuted: the values are wrong too. C99_exact_partial gives the exact condition on the subject's last word; C99_literal_partial: without wildcards nothing comes back to where it came from. NATS wildcards are modelled from its documentation (word by word; C99_matching)."
  },
  {
   "property": "C100",
   "status": "partial",
   "theorems": [
    "C100_refuted",
    "C100_filters_refuted",
    "C100_copies_partial",
    "C100_literal_partial",
    "C100_group_partial"
   ],
   "note": "Refuted by overlapping wildcard subjects (writer without queue group: two copies; filters: the queue group 'filter' is fixed, so of two filters with overlapping subjects only one gets the message). C100_copies_partial: the exact number of copies, and at most one iff no two subjects overlap; C100_group_partial: a queue group gets exactly one."
  },
  {
   "property": "C101",
   "status": "partial",
   "theorems": [
    "C101_writer_exact_partial",
    "C101_writer_messages",
    "C101_writer_refuted",
    "C101_http_exact_partial",
    "C101_http_nanos",
    "C101_http_refuted",
    "C101_udp"
   ],
   "note": "Refuted as to what is counted (C101_writer_refuted, C101_http_refuted: one message of three lines, one HTTP write of three lines, reach a count of three). Exact conditions of a flush for every history: C101_writer_exact_partial, C101_http_exact_partial, C101_udp; the documented counting holds for a writer without rules (C101_writer_messages) and for nanosecond requests (C101_http_nanos)."
  },
  {
   "property": "C102",
   "status": "partial",
   "theorems": [
    "C102_counters_agree",
    "C102_shown_partial",
    "C102_off_by_partial",
    "C102_quiet",
    "C102_grow",
    "C102_refuted"
   ],
   "note": "Refuted for one report (C102_refuted: passed 1 with processed 0; triggered 1 with passed 0). Proved for every schedule: the counters agree at every moment (C102_counters_agree), each number is right for a moment of the report (C102_shown_partial), the disagreement is bounded by the lines dealt with meanwhile (C102_off_by_partial), exact when idle (C102_quiet), never smaller later (C102_grow). Counts below 2^64 calls."
  },
  {
   "property": "C103",
   "status": "proved",
   "theorems": [
    "C103_parsing",
    "C103_rules",
    "C103_filter",
    "C103_downsampler",
    "C103_writer",
    "C103_udp",
    "C103_http",
    "C103_splitter"
   ],
   "note": "Go-level transcriptions with bounds checks, re-slicing over backing memory, division checks and loops with fuel are proved to return exactly what the functional models used elsewhere return (no Panic, no Unfinished), for any data. regexp, sort, strconv, bytes and bufio are assumed not to panic; running out of memory is not modelled."
  },
  {
   "property": "C104",
   "status": "partial",
   "theorems": [
    "C104_batch",
    "C104_udp",
    "C104_http_refuted",
    "C104_http_partial",
    "C104_http_adds",
    "C104_writer"
   ],
   "note": "UDP listener and writer: proved. HTTP listener: refuted (a single nanosecond request is read into the batch completely, so the buffer grows with the body, and is never given back); proved: the bound by the requests' sizes and their overlap. Not counted: slack of Go's allocator, garbage not yet collected, net/http's and NATS' own buffers, the downsampler's buckets."
  },
  {
   "property": "C105",
   "status": "partial",
   "theorems": [
    "C105_window_partial",
    "C105_untimed",
    "C105_none_refused",
    "C105_timer",
    "C105_stall_refuted",
    "C105_catches_up",
    "C105_set_back_refuted"
   ],
   "note": "Partial: refuted after a stall of more than a whole period (Update runs before Bytes and Bytes closes one period per turn, so the next m-1 turns refuse every line of the present as too new, even lines without a timestamp; C105_stall_refuted, C105_catches_up) and after the clock was set back by more than two periods (C105_set_back_refuted). Proved for workers that keep up (C105_window_partial, C105_untimed, C105_none_refused, C105_timer)."
  },
  {
   "property": "C106",
   "status": "partial",
   "theorems": [
    "C106_interleaving",
    "C106_period",
    "C106_same_fields",
    "C106_int_partial",
    "C106_int_refuted",
    "C106_float_partial",
    "C106_float_refuted",
    "C106_strings_refuted"
   ],
   "note": "Interleaving of series proved for all lines (C106_interleaving, C106_period); series and fields are the same for every order (C106_same_fields). Refuted for a series' own points: integer averages of two orders differ by up to n-1 (C106_int_partial gives the bound, C106_int_refuted attains it), float averages by rounding errors (C106_float_partial, C106_float_refuted), strings show the last value and a field keeps the type that came first (C106_strings_refuted)."
  },
  {
   "property": "C107",
   "status": "partial",
   "theorems": [
    "C107_filter_partial",
    "C107_filter_counters",
    "C107_shared_subject_refuted",
    "C107_writer",
    "C107_downsampler"
   ],
   "note": "Filter: per-subject streams are the same if the subjects of rules and junk are distinct (C107_filter_partial), counters in any case (C107_filter_counters); with a shared subject the order of lines depends on the grouping (C107_shared_subject_refuted). Writer (C107_writer) and downsampler (C107_downsampler, given that periods are put out after the same lines) in full."
  },
  {
   "property": "C108",
   "status": "partial",
   "theorems": [
    "C108_filter",
    "C108_downsampler",
    "C108_silence",
    "C108_series",
    "C108_series_count",
    "C108_monitor_keeps_partial",
    "C108_monitor_refuted"
   ],
   "note": "Filter and downsampler in full (C108_filter, C108_downsampler, C108_silence, C108_series, C108_series_count). The monitor never drops a metric: everything ever accepted is in every later answer (C108_monitor_keeps_partial), so its answers grow without bound (C108_monitor_refuted)."
  },
  {
   "property": "C109",
   "status": "partial",
   "theorems": [
    "C109_precision",
    "C109_every_query",
    "C109_escape",
    "C109_same_effect",
    "C109_other_paths",
    "C109_unknown_unit_refuted",
    "C109_method_encoding_refuted"
   ],
   "note": "Precision reading, equal effects and other paths proved for all requests and schedules; the part about refusing unknown units, other methods and encodings is refuted."
  },
  {
   "property": "C110",
   "status": "proved",
   "theorems": [
    "C110_fits",
    "C110_unreadable",
    "C110_insert",
    "C110_append",
    "C110_dead",
    "C110_twice",
    "C110_narrower",
    "C110_reorder",
    "C110_reorder_history",
    "C110_subjects"
   ],
   "note": "Two filters with edited rules are compared on the same messages and clock readings, with arbitrary and different publish outcomes. 'Fits' is tied to the meaning of rules by C110_fits."
  },
  {
   "property": "C111",
   "status": "partial",
   "theorems": [
    "C111_answers",
    "C111_filter_partial",
    "C111_filter_page_partial",
    "C111_component",
    "C111_apart",
    "C111_deployment",
    "C111_refuted"
   ],
   "note": "Refuted for two rules with the same subject; proved for filters whose rules have different subjects, for every other component (a listener without conditions; a writer or downsampler whose subjects differ and whose subscriptions' drop counts do not decrease), and for any number of components that differ in type, name or host. Values below 2^63. A restart of the component or of the monitor starts anew."
  },
  {
   "property": "C112",
   "status": "partial",
   "theorems": [
    "C112_one_write",
    "C112_batch",
    "C112_handover",
    "C112_attempts",
    "C112_dropped_partial",
    "C112_kept",
    "C112_dropped_refuted",
    "C112_no_timeout_refuted",
    "C112_waits",
    "C112_unchecked"
   ],
   "note": "Partial: the property as stated is false. C112_one_write, C112_batch, C112_handover and C112_attempts prove the bound for a positive write_timeout; a timed out write is dropped only if retrying is off (C112_dropped_partial), with the default settings it is retried (C112_kept, C112_dropped_refuted); a write_timeout of zero or less is accepted (C112_unchecked) and means that a silent InfluxDB stops a worker, and Stop, for ever (C112_no_timeout_refuted). net/http's Client.Timeout is modelled from its documentation; computations take no time."
  },
  {
   "property": "C113",
   "status": "partial",
   "theorems": [
    "C113_all_up_partial",
    "C113_nothing_else",
    "C113_ready_once",
    "C113_ends",
    "C113_own_port",
    "C113_exit",
    "C113_missing",
    "C113_probes_refuted",
    "C113_same_port_refuted",
    "C113_unchecked",
    "C113_ready_udp",
    "C113_ready_refuted"
   ],
   "note": "Partial: the property as stated is false. C113_all_up_partial: with valid, free, pairwise different ports everything is served under every schedule; C113_own_port: a component never runs on without its own port; C113_exit and C113_missing: the only reasons for a port not being served, and pprof's error is logged. Refuted: a probe port which cannot be opened is not mentioned anywhere (C113_probes_refuted); probe_port = port is accepted (C113_unchecked), and an HTTP listener or monitor then either exits or runs without probes, depending on the schedule (C113_same_port_refuted); an HTTP listener or monitor reports ready before it opens its port (C113_ready_refuted), a UDP listener does not (C113_ready_udp). net.Listen is modelled from its documentation; port 0 is treated like any other."
  },
  {
   "property": "C114",
   "status": "partial",
   "theorems": [
    "C114_fresh_partial",
    "C114_true",
    "C114_cumulative",
    "C114_stops",
    "C114_lost",
    "C114_last_refuted"
   ],
   "note": "Partial: false at the end of a component's life. There is no last report, so what was counted after the last reading is never published (C114_lost: exactly that; C114_last_refuted: a component stopped within its first interval only reports zeros). Proved: the freshness bound while running (C114_fresh_partial, with R the time a report takes and W the lateness of the timer), what a report's value and timestamp mean (C114_true; a listener reads the counters before the clock, the others after), monotonicity, and that Stop does not wait for the interval. The spacing of reports is C93."
  },
  {
   "property": "C115",
   "status": "partial",
   "theorems": [
    "C115_answers_right",
    "C115_one_by_one",
    "C115_progress_partial",
    "C115_catch_up_partial",
    "C115_small_partial",
    "C115_stall_refuted",
    "C115_stall_reachable"
   ],
   "note": "Partial: a scraper which stops reading stops the monitor. The handler calls w.Write with the mutex held and the server has no WriteTimeout, so as soon as a page is longer than what the connection buffers, one stalled client means no answers, no updates and lost reports until it goes away (C115_stall_refuted; C115_stall_reachable: one report, one request, for any size of buffers). Proved: every answer is right for one moment (C115_answers_right, C115_one_by_one), and requests are answered and updates catch up while clients read (C115_progress_partial, C115_catch_up_partial) or pages fit in the buffers (C115_small_partial). That ListenAndServe and each handler run is C77 and C113."
  },
  {
   "property": "C116",
   "status": "partial",
   "theorems": [
    "C116_readable_partial",
    "C116_effect_partial",
    "C116_rest",
    "C116_rule_partial",
    "C116_order_partial",
    "C116_wrong_type",
    "C116_bare",
    "C116_printed",
    "C116_names",
    "C116_load_partial",
    "C116_ignored",
    "C116_unknown_refuted",
    "C116_old_names_refuted",
    "C116_twice_refuted"
   ],
   "note": "Partial: unknown keys are ignored silently, so all option names from before version 2 are (C116_unknown_refuted, C116_old_names_refuted): the repository's own example-http-listener.conf asks for batches of 100 under the old name and gets 10 (Example the_http_example), and [[rules]] instead of [[rule]] gives a filter without rules. A file with an option in two cases (port and Port) is accepted and which one counts is up to Go's map order (C116_twice_refuted). Proved: a file without such doubles is readable exactly when every value has its option's type, then every option in it has its value, the rest keep theirs, in any order of keys (C116_readable_partial, C116_effect_partial, C116_rest, C116_order_partial, C116_rule_partial); a value of the wrong type in any file stops the start (C116_wrong_type); a number without unit is a size but no duration, except 0 (C116_bare, C116_printed); the names are those of README.md (C116_names); and such files are what C53 speaks about (C116_load_partial). Not modelled: the TOML parser itself; the library's matching of keys (exact name first, then strings.EqualFold) is modelled from knowledge."
  },
  {
   "property": "C117",
   "status": "partial",
   "theorems": [
    "C117_account_partial",
    "C117_order_partial",
    "C117_gentle_partial",
    "C117_room",
    "C117_size",
    "C117_memory",
    "C117_forever",
    "C117_soon",
    "C117_tap_partial",
    "C117_tap_refuted",
    "C117_counted",
    "C117_listener_partial",
    "C117_back_first_refuted",
    "C117_wire_refuted",
    "C117_restart_refuted",
    "C117_once_refuted",
    "C117_filter_counted",
    "C117_filter_partial"
   ],
   "note": "Partial, because false as stated in five ways: if the publisher reconnects before the subscriber, all it has kept goes to a server without subscribers, uncounted (C117_back_first_refuted); what was on a connection which breaks is lost although Publish returned nil (C117_wire_refuted); a component restarted before the server is back loses what its client has kept (C117_restart_refuted); if a connection breaks again while the kept messages are sent, all are sent again (C117_once_refuted); influx-spout-tap connects without MaxReconnects(-1) and gives up after 60 attempts, silently (C117_tap_refuted; exact: C117_tap_partial). Proved for all histories: every message is received once, in order, or is one of the refused, lost with a connection or a restart, or unheard (C117_account_partial, C117_order_partial); outages of any number and length with nothing on the connections, room in the buffer and the subscriber back before the kept messages are sent lose nothing (C117_gentle_partial, with a listener in front: C117_listener_partial); exactly what there is room for (C117_room, C117_size) and what it costs (C117_memory); components try for ever and are back soon after the server (C117_forever, C117_soon); failed_nats_publish is exactly the number of refused messages (C117_counted, over the model of the UDP listener; C117_filter_counted and C117_filter_partial for the workers of a filter). The client library's reconnect logic is modelled from knowledge."
  },
  {
   "property": "C118",
   "status": "partial",
   "theorems": [
    "C118_endpoints",
    "C118_documented",
    "C118_usual",
    "C118_once",
    "C118_body_partial",
    "C118_lost",
    "C118_body_refuted"
   ],
   "note": "Partial, because the last part is refuted: a POST to //write, /a/../write or another path whose usual form is /write is answered 301; clients follow it with a GET without body, which the handler accepts with 204 (it does not look at the method), so the write is reported as done and nothing was read (C118_body_refuted). C118_lost says exactly for which requests that happens, C118_body_partial that a request for the endpoint itself is always given to the handler as it is. Proved in full: which paths are handled, redirected or 404 (C118_endpoints), what the usual form is (C118_usual), at most one redirect (C118_once). http.ServeMux and path.Clean (Go 1.15) are modelled from knowledge; CONNECT is included (no cleaning)."
  },
  {
   "property": "C119",
   "status": "partial",
   "theorems": [
    "C119_address",
    "C119_first",
    "C119_exact_partial",
    "C119_home_partial",
    "C119_one_redirect_partial",
    "C119_every_partial",
    "C119_anonymous",
    "C119_leak_refuted",
    "C119_clear_refuted",
    "C119_upgrade_refuted",
    "C119_same_requests"
   ],
   "note": "Partial, because false as stated: http.Client copies the header from the first request whenever a request's address is within that of the request before it, so a foreign server to which the configured one redirects gets the password with a second redirect to itself (C119_leak_refuted, for every configuration and foreign URL; this is CVE-2024-45336, fixed in later Go); https to http at the same port keeps it (C119_clear_refuted); and http to https with default ports loses it, so a server that wants a login answers 401 and every write is dropped as permanently failed (C119_upgrade_refuted). Proved: exactly which requests bear it (C119_exact_partial), the first always (C119_first), never abroad with at most one redirect or if no foreign server redirects to itself (C119_one_redirect_partial, C119_home_partial), all requests if the servers stay at the address (C119_every_partial). The copying is modelled from knowledge of Go 1.15 net/http; no user names inside URLs, IPv6 literals or non-ASCII names."
  },
  {
   "property": "C120",
   "status": "partial",
   "theorems": [
    "C120_alone",
    "C120_lone",
    "C120_same_lone",
    "C120_published",
    "C120_group",
    "C120_received",
    "C120_undisturbed_partial",
    "C120_shares",
    "C120_lone_shares_none",
    "C120_diverted_refuted"
   ],
   "note": "Partial, because false when queue groups are shared: all filters are in the group 'filter' whatever their rules, so a second filter with other rules is given messages which the first one would have had, and a writer may have the queue group of another, or 'filter' (C120_diverted_refuted, for any two components with the same group and subject and any number of messages). Proved: components without queue group (all but filters and writers with queue_group: C120_alone) receive all that is published on their subjects while they run, whatever else comes and goes (C120_lone, C120_same_lone, C120_published); a group's messages each go to exactly one member whatever the changes (C120_group); a component which shares no group with another on a common subject can be taken out of any history and nobody notices (C120_undisturbed_partial). The broker is modelled from knowledge of gnatsd; messages lost with connections and full buffers: C117, C85."
  },
  {
   "property": "C121",
   "status": "partial",
   "theorems": [
    "C121_exact_partial",
    "C121_inexpressible",
    "C121_any_name",
    "C121_crash_refuted",
    "C121_no_crash_partial",
    "C121_lost_refuted",
    "C121_forged_refuted",
    "C121_scraped_partial",
    "C121_backslash_refuted"
   ],
   "note": "Partial, because label values are written without escaping and Validate does not look at them (C121_any_name). Exactly (C121_exact_partial, for reports with distinct plain names of counters and labels): a report arrives if and only if no label value has a double quote or a newline in it; there is no message which says such a report (C121_inexpressible). Refuted: a name with a quote, a closing brace and a newline ends the monitor's process with the first report, whatever came before (C121_crash_refuted, for all such names and reports; without newlines no report does, whatever else is in the values: C121_no_crash_partial); a quote in the name before anything but a comma, a closing brace or a newline makes the monitor refuse every report of the component (C121_lost_refuted, for all such names and reports); a name can bring labels of its own (C121_forged_refuted); a backslash is served as it is and Prometheus reads C:\\new with a newline (C121_backslash_refuted; exactly: C121_scraped_partial, Prometheus' unescaping being modelled from knowledge)."
  }
 ]
}