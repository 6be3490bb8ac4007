{
 "C01": "Exact characterisation (iff) for both escapers.",
 "C02": "Full; also uniqueness of the token and the one-byte special case.",
 "C03": "Full, for every tag list including the empty one.",
 "C04": "False of the code as stated (values ending in a backslash, or mixing a quote with an escaped-looking pair); the exact set of values that survive is proved as an iff.",
 "C05": "False of the code: the accumulator wraps at 2^64 (ToInt \"18446744073709551617\" = 1). Exact below 2^64, and the exact wrapped behaviour for every length.",
 "C10": "Full for chunkSize >= 1; with chunkSize 0 the loop provably spins (not used by the code base).",
 "C11": "False of the code at every chunk size (so a 1 MB + 1 byte NATS message is possible); proved: at most one byte more, only for a chunk ending in the newline at index chunkSize.",
 "C12": "Full.",
 "C13": "Full, for all histories and reader schedules.",
 "C14": "Full.",
 "C15": "False of Batch for capacities 32768..65535; exact condition proved (iff), and proved for every state of a UDP listener.",
 "C16": "Full, UDP loop with any read results, clocks and publish failures.",
 "C17": "Full for datagrams of at most 65536 bytes (UDP maximum is 65507).",
 "C18": "Full: equality with an independent reference grouping, counters, and limits; plus the HTTP limits.",
 "C19": "Full at the granularity of lock-protected sections; ReadFrom happens under the lock.",
 "C20": "False of the code when a body lacks the final newline; proved when bodies end in a newline, and exactly (iff): lines stay apart iff every unit followed by another in its batch ends in a newline.",
 "C21": "False as stated: a nanosecond body is read from the network under the mutex, so a stalled client stops the age goroutine (C21_slow_client_refuted). Proved: the bound with slack = the longest wait of that goroutine for the mutex and the processor, in the lock-level model and in the Read-call-level model.",
 "C22": "False of the code; proved: exactly the pending group is lost, and nothing after an idle period of batch_max_age.",
 "C23": "Full (iff).",
 "C24": "Full; for raw lines stated against the ideal meaning of rules, under the no-hash-collision condition of C25.",
 "C25": "False of the code (two real-looking names with the same 32-bit FNV-1 hash). Proved: the right name always matches; names one byte apart never collide.",
 "C26": "Full for lines with a field section and parts that survive the line protocol; the two excluded shapes are shown to be damaged.",
 "C27": "False of the code: SortTags overwrites the memory the tags still point into. Proved for lines not rewritten in place, and for rule sets without tags rules; for lines without backslashes that are rewritten, C27_exact_partial says exactly what the rules see (the bytes now standing where each tag stood), and C27_equally_long_partial that the right rule is chosen if all keys are equally long and all values are.",
 "C28": "Full: equality of the published messages with a reference, for every clock value for which now +- max_time_delta does not overflow int64. C28_right_subject adds the correct choice of the rule for lines not affected by C25/C27.",
 "C29": "Full.",
 "C30": "False of the code as stated. Proved exactly which timestamps are recognised and that for those the open window is enforced.",
 "C31": "Full at the granularity of counter increments and publishes; any number of workers; Stop included (queued messages are then lost, visible in C31_at_every_moment).",
 "C32": "Full, for every bucket implementation; time is an unbounded integer of nanoseconds (Go's Truncate relative to year 1 is modelled).",
 "C33": "Full.",
 "C34": "False of the code as stated: integer division per step loses up to 1/2 per value (0..n averages to 0) and differences can overflow. Proved: the sharp bound (n-1)/2, staying inside the window of the values, and that the printed number is that running average.",
 "C35": "Full.",
 "C36": "False of the code: a bad field leaves the fields before it applied. Proved for new series, other series and single-field lines. Exact effect: a line of well-formed fields acts like one line per field (C36_field_by_field_partial), and a line torn off in a field name acts like the fields before (C36_torn_partial).",
 "C37": "Full, for any map iteration order and any correct sort; floating point operations are parameters. A second theorem covers arbitrary malformed input lines.",
 "C38": "False of the code when a boolean field ends as a string, or for field-less lines. Proved when fields keep their type, and under the exact per-field condition (iff): the only bad case is a field that starts as a boolean and ends as a string that cannot stand without quotes.",
 "C39": "Full, for the retry goroutine alone and inside the writer.",
 "C40": "Full: the batches handed in are a permutation of queued/delivered/rejected/expired/evicted; in the writer additionally FIFO hand-over and no duplicates.",
 "C41": "Full: interval measured from the end of an attempt (stronger than start to start), TTL, expiry only after the TTL, and the timer is armed whenever something waits.",
 "C42": "Full: position-exact for the queue operation, and as a statement about histories.",
 "C43": "Classification proved exactly; never-again proved for the retry goroutine. The remaining claim (4xx on the first POST is not retried) is refuted for every 4xx code.",
 "C44": "Full, including whole lines under the stated length condition and the meaning of the rules.",
 "C45": "Absence of deadlock: a move is always possible, a hand-over and a shutdown can be forced within a bounded number of moves whatever the database answers. Fairness of the scheduler is not modelled.",
 "C46": "What the counters do count is proved exactly; the property as stated is refuted for every n.",
 "C47": "Full: linearizability of the atomic-step model, totals, monotonicity, absence of panics for known names, lock freedom and obstruction freedom.",
 "C48": "Full; additionally the accepted language is characterised exactly and is unambiguous.",
 "C49": "Refuted; the panicking lines and messages are characterised exactly, absence of panics proved for all others. The same is proved of the statements of parse.go with every index and slice expression checked (C49_code, C49_code_message).",
 "C50": "Refuted for lines whose labels arrive unsorted (rendering overwrites the memory of the labels); proved for sorted labels and for the first GET; and for every history and every GET (C50_every_answer_partial) how far the damage goes: always one line per metric in order, with the right name, value, time and number of labels, and right labels whenever they came in order or the metric was reported since the last GET.",
 "C51": "Full: acceptance characterised as an iff, and every reported reason is true of the configuration.",
 "C52": "False of the code: regular expressions are compiled with MustCompile, and writer validation does not check tag pairs. Proved: exact conditions (iff) for success and for a panic, and that a validated filter panics only on an expression that does not compile.",
 "C53": "Proved as an iff for every option, for any TOML decoder that decodes rules into an empty list as expected. With both files setting rules, the library merges them position by position (from knowledge of BurntSushi/toml 0.3.1): shown to give neither file's rules.",
 "C54": "Proved for filter, downsampler, writer. False for listener, HTTP listener and monitor: their goroutine can report ready after Stop cleared it; and a listener that fails early leaves its probe server alive.",
 "C55": "Full.",
 "C56": "Full composition of the listener, filter and writer models; NATS delivery is a hypothesis (it is outside the repository).",
 "C57": "Full, over the bucket contents proved in C32/C33 and texts in C37.",
 "C58": "Full.",
 "C59": "Full.",
 "C60": "Accounting proved; 'Stop loses nothing' refuted.",
 "C61": "Full.",
 "C62": "Full; for the writer under the fact that 288 bytes is a size class of Go's allocator (hypothesis on the parameter roundcap).",
 "C63": "False of the code; the exact conditions are proved (iff).",
 "C64": "Full.",
 "C65": "Full.",
 "C66": "IEEE 754 binary64 from Flocq; rests on the standard library's axioms of the real numbers, functional extensionality and Classical_Prop.classic. strconv.ParseFloat and AppendFloat are parameters.",
 "C67": "Proved for the labelled transition system of FilterWorker.v; the measure argument covers every scheduler. The 30-second limit of waiting on the NATS side (Unsubscribe, drain) is outside the model: the hypothesis is that no message arrives any more.",
 "C68": "False: with a precision other than ns a line of 64 KB makes the scanner stop and the request is still answered 204; and a body cut off by a network error is acknowledged internally and its half line is joined to another client's line. Proved for readable bodies under every schedule, with the exact content in the other cases.",
 "C69": "False at Stop: the three open buckets are dropped. Proved: exactly the lines of the three open periods are missing, and three more turns after the ends of the next periods emit everything accepted.",
 "C70": "Composition of C33, C37, C57 and C44. Hypotheses: the lines are good points (C37), end times fit int64, the writer has no rules and receives the downsampler's messages in order (NATS delivery).",
 "C71": "False: sorting the tags of a line rewrites it with all special bytes escaped, an unescaped = in a value grows by one byte. Proved: at most twice the size; no larger when lines are in order or canonical.",
 "C72": "False: fmt.Printf(line) treats the line as a format string. Proved for messages without percent sign. fmt.Printf is a parameter constrained by its documentation.",
 "C73": "False: a tag without value (cpu,a=,b=c) is accepted and swallows the next tag; a leading delimiter is accepted as part of a name. Proved: the exact language accepted (both directions) and its contents; every well-formed line is accepted with the right contents.",
 "C74": "False: any byte after a quoted value stands for a comma, and an unquoted value may begin with a comma. Proved: exact language, values returned, well-formed sections are accepted.",
 "C75": "False if two rules have the same subject (their lines have the same labels, the last one wins). Proved exactly: every item is shown iff items sharing a label share their count; in all cases the last item of a label is shown, in the only line with these labels.",
 "C76": "NATS delivery (every message to each lone subscription and to one member of each queue group, in any order) is part of the model's broker; the cluster is observed at rest.",
 "C77": "False: validation accepts a filter that publishes on the subject it reads (a line then circulates for ever) and a writer that lists a subject twice. Proved: once each, for any topology, when no filter writes to its input and subjects are distinct.",
 "C78": "False: the database name is put into the URL unescaped. Proved: exactly which names arrive (none of # & ; % + space, control bytes) and exactly which user names (no colon). Go's net/url and Basic Auth are modelled from knowledge of the library.",
 "C79": "False: refuted for nanosecond bodies (stalled reader holds the mutex: nothing published, batched or acknowledged). Proved: holds when all bodies are in other precisions; and the Read-call-level model refines the lock-level model used for C19-C21 and C68.",
 "C80": "Proved for filter, downsampler, writer, monitor; for the listeners what exactly is left is proved, and the full claim refuted. That goroutines return after close(stop) is taken from C45/C67 and the select loops; goroutines inside the NATS library count as part of the connection.",
 "C81": "Proved for every max_time_delta with 0 < delta <= MaxInt64 - now; outside that range all lines without timestamp (and, above it, all lines) are rejected: refuted, with configurations that are accepted.",
 "C82": "Whole writer: subscriptions with pending limits (nats.go 1.10 client modelled from knowledge), jobs channel, any number of workers with their retry goroutines; each worker is proved to be a run of the single-worker model, so C39-C46 and C58-C60 hold for the pool.",
 "C83": "False with two workers, and with one worker after a failed write (both shown by runs). Proved: with one subject and one worker the first attempts are in arrival order.",
 "C84": "False: with the 1024-message queue full at Stop the callback blocks for ever (for every message and configuration). Proved: exact condition (room in the queue).",
 "C85": "Composes the NATS subscription model of C82 with the filter pool of C28/C31 and with the downsampler worker of C32-C38.",
 "C86": "Composition of the filter model with itself; shows where the tag-rule defect of C27 can and cannot occur.",
 "C87": "SetPendingLimits and the client's accounting are modelled from knowledge of nats.go v1.10.0; the default limits that hold for the moment between Subscribe and SetPendingLimits are not modelled.",
 "C88": "A kill is the end of a component's history at any step of the model (the program never calls Stop); NATS is taken to deliver each message to at most one filter and one writer of these subjects. UDP listeners. Acknowledged means answered with success: a request that InfluxDB carried out but answered too late, or not before the kill, and that is retried, is stored twice, outside the model's view.",
 "C89": "How InfluxDB reads a line is a parameter; last write wins per key (series, field, time stamp) is InfluxDB's documented behaviour. C89_needs_dates and C89_needs_consistency show that both conditions on the lines are needed.",
 "C90": "Composes the models behind C51-C53, C63, C80 and C87. What ends a running component later (log.Fatal when the HTTP port of a listener or monitor is in use) is not part of it.",
 "C91": "False for metrics where more is better: findProblems looks at the sign of the delta only (C91_speed_refuted). benchstat (its delta column) is modelled from knowledge of golang.org/x/perf; ParseFloat is a parameter that reads such numbers back; the limit is taken in hundredths of a percent.",
 "C92": "The UDP listener checks after each read, at least once a second because of the read deadline; the writer wakes at least once a second when idle; both facts about Go timers are not modelled, the statements are about the moment of a check. The pipeline theorem takes delivery by NATS as hypothesis (see C56).",
 "C93": "False when batch_max_age or stats_interval is zero (C93_refuted): such values pass validation and the loop runs without pause. For other values the bounds are proved.",
 "C94": "time.ParseDuration (Go 1.15) and datasize.ByteSize.UnmarshalText are modelled from knowledge, they are not in the repository. Durations with decimals are covered by C94_point (float64 arithmetic, Flocq) when the unit is divisible by the last decimal place; finer decimals are outside the theorems.",
 "C95": "Refuted for tags rules (C95_refuted): every writer refuses a complete tags rule; one with a meaningless 'match' is accepted. C95_accepted_partial and C95_back_partial give the exact condition, C95_same_meaning that accepted rules mean the same.",
 "C96": "http.Client.Do (net/http, Go 1.15) is modelled from knowledge: redirectBehavior, the limit of ten requests, missing and unreadable Location. The other writer properties take the final answer as given.",
 "C97": "Refuted (C97_refuted); the exact condition is proved. runtime.makechan is modelled from knowledge of Go 1.15 on linux/amd64; running out of memory below its limit is not modelled.",
 "C98": "bufio.Scanner is modelled Read call by Read call from the Go standard library source; the request model of Listener.v is shown to start with exactly the scanner's lines (C98_model). C98_boundary: a last line of exactly 65536 bytes without newline is accepted or refused depending on when the network reports the end of the body.",
 "C99": "Refuted: subjects are passed to NATS unchecked; a downsampler reading spout.* with suffix -archive gets its own output. C99_refuted: one line is published again in every later period, for any number of periods; C99_average_refuted: the values are wrong too. C99_exact_partial gives the exact condition on the subject's last word; C99_literal_partial: without wildcards nothing comes back to where it came from. NATS wildcards are modelled from its documentation (word by word; C99_matching).",
 "C100": "Refuted by overlapping wildcard subjects (writer without queue group: two copies; filters: the queue group 'filter' is fixed, so of two filters with overlapping subjects only one gets the message). C100_copies_partial: the exact number of copies, and at most one iff no two subjects overlap; C100_group_partial: a queue group gets exactly one.",
 "C101": "Refuted as to what is counted (C101_writer_refuted, C101_http_refuted: one message of three lines, one HTTP write of three lines, reach a count of three). Exact conditions of a flush for every history: C101_writer_exact_partial, C101_http_exact_partial, C101_udp; the documented counting holds for a writer without rules (C101_writer_messages) and for nanosecond requests (C101_http_nanos).",
 "C102": "Refuted for one report (C102_refuted: passed 1 with processed 0; triggered 1 with passed 0). Proved for every schedule: the counters agree at every moment (C102_counters_agree), each number is right for a moment of the report (C102_shown_partial), the disagreement is bounded by the lines dealt with meanwhile (C102_off_by_partial), exact when idle (C102_quiet), never smaller later (C102_grow). Counts below 2^64 calls.",
 "C103": "Go-level transcriptions with bounds checks, re-slicing over backing memory, division checks and loops with fuel are proved to return exactly what the functional models used elsewhere return (no Panic, no Unfinished), for any data. regexp, sort, strconv, bytes and bufio are assumed not to panic; running out of memory is not modelled.",
 "C104": "UDP listener and writer: proved. HTTP listener: refuted (a single nanosecond request is read into the batch completely, so the buffer grows with the body, and is never given back); proved: the bound by the requests' sizes and their overlap. Not counted: slack of Go's allocator, garbage not yet collected, net/http's and NATS' own buffers, the downsampler's buckets.",
 "C105": "Partial: refuted after a stall of more than a whole period (Update runs before Bytes and Bytes closes one period per turn, so the next m-1 turns refuse every line of the present as too new, even lines without a timestamp; C105_stall_refuted, C105_catches_up) and after the clock was set back by more than two periods (C105_set_back_refuted). Proved for workers that keep up (C105_window_partial, C105_untimed, C105_none_refused, C105_timer).",
 "C106": "Interleaving of series proved for all lines (C106_interleaving, C106_period); series and fields are the same for every order (C106_same_fields). Refuted for a series' own points: integer averages of two orders differ by up to n-1 (C106_int_partial gives the bound, C106_int_refuted attains it), float averages by rounding errors (C106_float_partial, C106_float_refuted), strings show the last value and a field keeps the type that came first (C106_strings_refuted).",
 "C107": "Filter: per-subject streams are the same if the subjects of rules and junk are distinct (C107_filter_partial), counters in any case (C107_filter_counters); with a shared subject the order of lines depends on the grouping (C107_shared_subject_refuted). Writer (C107_writer) and downsampler (C107_downsampler, given that periods are put out after the same lines) in full.",
 "C108": "Filter and downsampler in full (C108_filter, C108_downsampler, C108_silence, C108_series, C108_series_count). The monitor never drops a metric: everything ever accepted is in every later answer (C108_monitor_keeps_partial), so its answers grow without bound (C108_monitor_refuted).",
 "C109": "Precision reading, equal effects and other paths proved for all requests and schedules; the part about refusing unknown units, other methods and encodings is refuted.",
 "C110": "Two filters with edited rules are compared on the same messages and clock readings, with arbitrary and different publish outcomes. 'Fits' is tied to the meaning of rules by C110_fits.",
 "C111": "Refuted for two rules with the same subject; proved for filters whose rules have different subjects, for every other component (a listener without conditions; a writer or downsampler whose subjects differ and whose subscriptions' drop counts do not decrease), and for any number of components that differ in type, name or host. Values below 2^63. A restart of the component or of the monitor starts anew.",
 "C112": "Partial: the property as stated is false. C112_one_write, C112_batch, C112_handover and C112_attempts prove the bound for a positive write_timeout; a timed out write is dropped only if retrying is off (C112_dropped_partial), with the default settings it is retried (C112_kept, C112_dropped_refuted); a write_timeout of zero or less is accepted (C112_unchecked) and means that a silent InfluxDB stops a worker, and Stop, for ever (C112_no_timeout_refuted). net/http's Client.Timeout is modelled from its documentation; computations take no time.",
 "C113": "Partial: the property as stated is false. C113_all_up_partial: with valid, free, pairwise different ports everything is served under every schedule; C113_own_port: a component never runs on without its own port; C113_exit and C113_missing: the only reasons for a port not being served, and pprof's error is logged. Refuted: a probe port which cannot be opened is not mentioned anywhere (C113_probes_refuted); probe_port = port is accepted (C113_unchecked), and an HTTP listener or monitor then either exits or runs without probes, depending on the schedule (C113_same_port_refuted); an HTTP listener or monitor reports ready before it opens its port (C113_ready_refuted), a UDP listener does not (C113_ready_udp). net.Listen is modelled from its documentation; port 0 is treated like any other.",
 "C114": "Partial: false at the end of a component's life. There is no last report, so what was counted after the last reading is never published (C114_lost: exactly that; C114_last_refuted: a component stopped within its first interval only reports zeros). Proved: the freshness bound while running (C114_fresh_partial, with R the time a report takes and W the lateness of the timer), what a report's value and timestamp mean (C114_true; a listener reads the counters before the clock, the others after), monotonicity, and that Stop does not wait for the interval. The spacing of reports is C93.",
 "C115": "Partial: a scraper which stops reading stops the monitor. The handler calls w.Write with the mutex held and the server has no WriteTimeout, so as soon as a page is longer than what the connection buffers, one stalled client means no answers, no updates and lost reports until it goes away (C115_stall_refuted; C115_stall_reachable: one report, one request, for any size of buffers). Proved: every answer is right for one moment (C115_answers_right, C115_one_by_one), and requests are answered and updates catch up while clients read (C115_progress_partial, C115_catch_up_partial) or pages fit in the buffers (C115_small_partial). That ListenAndServe and each handler run is C77 and C113.",
 "C116": "Partial: unknown keys are ignored silently, so all option names from before version 2 are (C116_unknown_refuted, C116_old_names_refuted): the repository's own example-http-listener.conf asks for batches of 100 under the old name and gets 10 (Example the_http_example), and [[rules]] instead of [[rule]] gives a filter without rules. A file with an option in two cases (port and Port) is accepted and which one counts is up to Go's map order (C116_twice_refuted). Proved: a file without such doubles is readable exactly when every value has its option's type, then every option in it has its value, the rest keep theirs, in any order of keys (C116_readable_partial, C116_effect_partial, C116_rest, C116_order_partial, C116_rule_partial); a value of the wrong type in any file stops the start (C116_wrong_type); a number without unit is a size but no duration, except 0 (C116_bare, C116_printed); the names are those of README.md (C116_names); and such files are what C53 speaks about (C116_load_partial). Not modelled: the TOML parser itself; the library's matching of keys (exact name first, then strings.EqualFold) is modelled from knowledge.",
 "C117": "Partial, because false as stated in five ways: if the publisher reconnects before the subscriber, all it has kept goes to a server without subscribers, uncounted (C117_back_first_refuted); what was on a connection which breaks is lost although Publish returned nil (C117_wire_refuted); a component restarted before the server is back loses what its client has kept (C117_restart_refuted); if a connection breaks again while the kept messages are sent, all are sent again (C117_once_refuted); influx-spout-tap connects without MaxReconnects(-1) and gives up after 60 attempts, silently (C117_tap_refuted; exact: C117_tap_partial). Proved for all histories: every message is received once, in order, or is one of the refused, lost with a connection or a restart, or unheard (C117_account_partial, C117_order_partial); outages of any number and length with nothing on the connections, room in the buffer and the subscriber back before the kept messages are sent lose nothing (C117_gentle_partial, with a listener in front: C117_listener_partial); exactly what there is room for (C117_room, C117_size) and what it costs (C117_memory); components try for ever and are back soon after the server (C117_forever, C117_soon); failed_nats_publish is exactly the number of refused messages (C117_counted, over the model of the UDP listener; C117_filter_counted and C117_filter_partial for the workers of a filter). The client library's reconnect logic is modelled from knowledge.",
 "C118": "Partial, because the last part is refuted: a POST to //write, /a/../write or another path whose usual form is /write is answered 301; clients follow it with a GET without body, which the handler accepts with 204 (it does not look at the method), so the write is reported as done and nothing was read (C118_body_refuted). C118_lost says exactly for which requests that happens, C118_body_partial that a request for the endpoint itself is always given to the handler as it is. Proved in full: which paths are handled, redirected or 404 (C118_endpoints), what the usual form is (C118_usual), at most one redirect (C118_once). http.ServeMux and path.Clean (Go 1.15) are modelled from knowledge; CONNECT is included (no cleaning).",
 "C119": "Partial, because false as stated: http.Client copies the header from the first request whenever a request's address is within that of the request before it, so a foreign server to which the configured one redirects gets the password with a second redirect to itself (C119_leak_refuted, for every configuration and foreign URL; this is CVE-2024-45336, fixed in later Go); https to http at the same port keeps it (C119_clear_refuted); and http to https with default ports loses it, so a server that wants a login answers 401 and every write is dropped as permanently failed (C119_upgrade_refuted). Proved: exactly which requests bear it (C119_exact_partial), the first always (C119_first), never abroad with at most one redirect or if no foreign server redirects to itself (C119_one_redirect_partial, C119_home_partial), all requests if the servers stay at the address (C119_every_partial). The copying is modelled from knowledge of Go 1.15 net/http; no user names inside URLs, IPv6 literals or non-ASCII names.",
 "C120": "Partial, because false when queue groups are shared: all filters are in the group 'filter' whatever their rules, so a second filter with other rules is given messages which the first one would have had, and a writer may have the queue group of another, or 'filter' (C120_diverted_refuted, for any two components with the same group and subject and any number of messages). Proved: components without queue group (all but filters and writers with queue_group: C120_alone) receive all that is published on their subjects while they run, whatever else comes and goes (C120_lone, C120_same_lone, C120_published); a group's messages each go to exactly one member whatever the changes (C120_group); a component which shares no group with another on a common subject can be taken out of any history and nobody notices (C120_undisturbed_partial). The broker is modelled from knowledge of gnatsd; messages lost with connections and full buffers: C117, C85.",
 "C121": "Partial, because label values are written without escaping and Validate does not look at them (C121_any_name). Exactly (C121_exact_partial, for reports with distinct plain names of counters and labels): a report arrives if and only if no label value has a double quote or a newline in it; there is no message which says such a report (C121_inexpressible). Refuted: a name with a quote, a closing brace and a newline ends the monitor's process with the first report, whatever came before (C121_crash_refuted, for all such names and reports; without newlines no report does, whatever else is in the values: C121_no_crash_partial); a quote in the name before anything but a comma, a closing brace or a newline makes the monitor refuse every report of the component (C121_lost_refuted, for all such names and reports); a name can bring labels of its own (C121_forged_refuted); a backslash is served as it is and Prometheus reads C:\\new with a newline (C121_backslash_refuted; exactly: C121_scraped_partial, Prometheus' unescaping being modelled from knowledge)."
}