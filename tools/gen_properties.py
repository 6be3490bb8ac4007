#!/usr/bin/env python3
"""Regenerates /verif/properties.jsonl (the single source of the property list)."""
import json, os
P = []
def p(id, title, statement, quantifier, why, *anchors):
    P.append(dict(id=id, title=title, statement=statement, quantifier=quantifier,
                  why_tests_cant=why, anchors=list(anchors)))

# ---------------------------------------------------------------- line protocol text
p("C01", "Escaping a tag part is undone by unescaping",
  "For a tag key/value v, Unescape(EscapeTagPart(v)) returns exactly v if and only if v does not contain a backslash immediately followed by a double quote; for a measurement name, Unescape(EscapeMeasurement(m)) returns m if and only if m contains no backslash immediately followed by '\"' or '='.",
  "every byte string of every length",
  "The failing strings are rare two-byte patterns inside an unbounded set; example tests only use hand-picked strings.",
  "influx/escape.go: EscapeTagPart, EscapeMeasurement, Escape", "influx/unescape.go: Unescape")
p("C02", "Tokenising loses nothing and stops at the first unescaped delimiter",
  "For every line s and delimiter set, TokenEscaped returns (tok, rest) with tok followed by rest equal to s; rest is empty or starts with a delimiter that is not preceded by a backslash; and no byte of tok other than its first is a delimiter unless it is preceded by a backslash. Token returns the same rest and exactly Unescape(tok).",
  "every byte string and every delimiter set",
  "The scan is over unbounded inputs with a look-behind for backslashes and a special case for one-byte input.",
  "influx/token.go: token, Token, TokenEscaped")
p("C03", "Rendering a measurement and tags and parsing them again gives them back",
  "For every measurement, non-empty tag list and remainder whose parts are non-empty, do not end in a backslash and contain no unsupported backslash pair, ParseTags(EscapeMeasurement(m) + ',' + Tags.Bytes() + ' ' + rest) returns exactly m, the tags in the same order and rest.",
  "every measurement, every list of tags of every length, every remainder",
  "A round trip over three unbounded dimensions, with escapes in any position.",
  "influx/tags.go: ParseTags, TagSet.Bytes", "influx/escape.go", "influx/token.go")
p("C04", "Quoted string fields round-trip",
  "QuotedString(EscapeQuotedString(v) + rest) returns v and rest for every string v. (False of the code when v ends in a backslash, or contains a double quote together with a backslash before ',', ' ' or '='; the exact set of v for which it holds is proved.)",
  "every field string v and every remainder",
  "The strings that break the round trip are combinations of quote and backslash positions in unbounded text.",
  "influx/token.go: QuotedString", "influx/escape.go: EscapeQuotedString")
p("C05", "Parsing integers is exact",
  "ToInt accepts exactly the strings made of an optional '-' and one or more decimal digits whose mathematical value fits in an int64, and returns that value; everything else is an error. (False of the code: the uint64 accumulator wraps, so some 20-or-more-digit numbers are accepted with a wrong value; proved exactly for up to 19 digits and characterised modulo 2^64 beyond.)",
  "every byte string",
  "Wrap-around happens only at particular magnitudes of an unbounded input set.",
  "convert/convert.go: ToInt")
p("C06", "The timestamp at the end of a line is found and valued correctly",
  "ExtractTimestamp returns (ts, offset) exactly when the line (after removing one trailing newline) ends in a space followed by at most 19 characters which are an integer in int64 range with no further space; then offset is the index just after that space and ts the value. Otherwise it returns (-1,-1).",
  "every line of at least 6 bytes (shorter lines: always (-1,-1))",
  "Depends on the position of the last space and digit count in arbitrary lines.",
  "influx/timestamps.go: ExtractTimestamp")
p("C07", "The nanosecond fast-path agrees with the general timestamp extraction",
  "Whenever ExtractNanos returns a timestamp, ExtractTimestamp returns the same timestamp and offset; and for lines whose timestamp is a full 19 characters both find it.",
  "every line",
  "The two functions scan in opposite directions; agreement must hold on every line, not on samples.",
  "influx/timestamps.go: ExtractNanos, ExtractTimestamp")
p("C08", "Precision conversion never silently overflows",
  "SafeCalcTime(ts, precision) returns ts times the precision's nanoseconds if that exact product lies in the supported range, and an error otherwise; it never returns a wrapped value.",
  "every int64 timestamp and every precision string",
  "Overflow occurs only at extreme values across 2^64 inputs.",
  "influx/timestamps.go: SafeCalcTime, safeSignedMult, getPrecisionMultiplier")
p("C09", "HTTP precision conversion rewrites exactly the timestamp",
  "For a line 'prefix SP ts [NL]' with a recognised timestamp, applyTimestampPrecision returns 'prefix SP ts*multiplier NL' when the product is representable; any other line is returned byte for byte unchanged.",
  "every line and precision",
  "Ranges over every line text and every timestamp value.",
  "listener/listener.go: applyTimestampPrecision")
# ---------------------------------------------------------------- splitter and batch
p("C10", "Splitting a batch loses and reorders nothing",
  "For every buffer and every positive chunk size, repeatedly calling Next/Chunk terminates and the chunks, concatenated in order, are exactly the buffer; no chunk is empty.",
  "every buffer, every chunk size >= 1",
  "Chunk boundaries depend on newline positions in arbitrary data.",
  "batchsplitter/batch_splitter.go: New, Next, Chunk")
p("C11", "No chunk is larger than the chunk size",
  "Under no circumstances will a chunk of more than chunkSize bytes be returned. (False of the code: a newline at index chunkSize yields a chunk of chunkSize+1 bytes; proved: at most chunkSize+1, and chunkSize+1 only in exactly that case.)",
  "every buffer, every chunk size",
  "The violating case needs a newline at one exact offset; every unit test misses it.",
  "batchsplitter/batch_splitter.go: Next", "config/config.go: MaxNATSMsgSize")
p("C12", "Lines are not broken across chunks",
  "If every line of the buffer fits in chunkSize bytes, then every chunk except possibly the last ends in a newline, so that the lines of the chunks are the lines of the buffer.",
  "every buffer whose lines fit, every chunk size",
  "Quantifies over all line length patterns.",
  "batchsplitter/batch_splitter.go: Next")
p("C13", "A batch holds exactly what was written since the last reset",
  "After any sequence of Append, EnsureNewline, ReadFrom, ReadOnceFrom and Reset, Bytes() is the concatenation of the data written since the last Reset (plus newlines added by EnsureNewline when missing), Writes() the number of Append calls and of reads that returned data, Size() its length and Remaining()+Size() the capacity; growth of the buffer never loses or alters data.",
  "every history of operations, every initial capacity, every reader behaviour",
  "Growth happens at data dependent points; histories are unbounded.",
  "batch/batch.go: Append, ReadFrom, ReadOnceFrom, Reset, EnsureNewline, grow, growIfLow, appendImpl")
p("C14", "Batch age is the time since the first write after a reset",
  "Age() is 0 while the batch has no writes and otherwise exactly the clock's advance since the first write after the last reset, whatever other operations happened in between.",
  "every history of operations and clock readings",
  "Histories and clocks are unbounded.",
  "batch/batch.go: Age, countWrite, Reset")
p("C15", "There is always room for a maximum size datagram before a read",
  "Before each read the batch offers at least 65536 bytes of space. (False of Batch alone: with capacity between 32768 and 65535 a full batch only doubles; proved for capacities of 0..32767 bytes, of 65536 bytes or more and for empty batches, which covers every state a UDP listener reaches.)",
  "every batch state",
  "Depends on the combination of capacity and fill level.",
  "batch/batch.go: growIfLow, grow")
# ---------------------------------------------------------------- listener
p("C16", "The UDP listener publishes every datagram exactly once, in order, newline terminated",
  "For every sequence of datagrams, read timeouts and read errors, at every moment the bytes handed to NATS so far followed by the bytes still batched are the concatenation of the received datagrams, each with a newline added if it lacked one.",
  "every sequence of read results and clock values, every configuration",
  "Ranges over all datagram sequences, sizes and batch triggers.",
  "listener/listener.go: listenUDP, maybeSendBatch, shouldSend, sendBatch", "batch/batch.go", "batchsplitter/batch_splitter.go")
p("C17", "The UDP listener never publishes a message NATS would refuse",
  "With a configuration accepted by validation, every message a UDP listener publishes is non-empty, at most 1 MB, ends in a newline and contains only whole datagrams.",
  "every sequence of datagrams of at most 65535 bytes, every valid configuration",
  "The bound depends on the accumulation of datagram sizes against thresholds.",
  "listener/listener.go: shouldSend, sendBatch", "config/config.go: validateListener")
p("C18", "Listener batch limits are honoured",
  "After every iteration of the UDP loop the data still held is below every limit: fewer than batch_max_count writes, younger than batch_max_age, more than one datagram below batch_max_size; the 'received' and 'sent' counters equal the number of datagrams and of batches.",
  "every history of the UDP loop",
  "All interleavings of data, time and limits.",
  "listener/listener.go: shouldSend, listenUDP")
p("C19", "HTTP writes from concurrent clients are never mixed within a line",
  "For every number of concurrent requests and every interleaving, the bytes published plus pending are a concatenation of the request bodies (nanosecond path) or of their individual converted lines (precision path), each contiguous, with no byte lost or duplicated.",
  "every set of concurrent requests, every schedule of lock acquisitions and of the age-based sender",
  "Thread interleavings cannot be enumerated by tests.",
  "listener/listener.go: handleHTTPWrite, readHTTPBodyNanos, readHTTPBodyWithPrecision, oldBatchSender")
p("C20", "Lines from different HTTP requests stay separate lines",
  "The lines published are exactly the lines of the request bodies. (False of the code: a body whose last line lacks a newline is joined to the next body; proved when every body ends in a newline.)",
  "every sequence of request bodies",
  "Needs the composition of two requests with particular endings.",
  "listener/listener.go: readHTTPBodyNanos")
p("C21", "HTTP batches are not held beyond batch_max_age",
  "If timers fire on time, no data is held in the HTTP listener's batch longer than batch_max_age, however requests arrive relative to the age checking goroutine's sleeps. (False: the handler reads a nanosecond body from the network while holding the batch's mutex, so a client that stalls stops the age checks; proved with a slack of the longest time the age goroutine waits for the mutex and the processor.)",
  "every arrival history and every wake-up history with punctual timers",
  "The sleep was computed for an earlier state of the batch; all arrival times must be considered.",
  "listener/listener.go: oldBatchSender")
p("C22", "Every received line is eventually published, even on shutdown",
  "No data received by the listener is lost when it is stopped. (False of the code: Stop discards the pending batch.)",
  "every history ending in Stop",
  "Stop can come at any point.",
  "listener/listener.go: Stop, listenUDP", "writer/writer.go: Stop, worker")
# ---------------------------------------------------------------- filter
p("C23", "Tag subset test is set inclusion",
  "a.SubsetOf(b) is true exactly when every tag (key and value) of a occurs in b, regardless of order, duplicates or extra tags.",
  "every pair of tag lists",
  "The implementation counts matches with early exit; duplicates matter.",
  "influx/tags.go: SubsetOf")
p("C24", "The first matching rule decides",
  "LookupParsed returns the index of the first rule that matches the line, or -1 when none does.",
  "every rule list and line",
  "Unbounded rule lists.",
  "filter/rules.go: LookupParsed, Lookup")
p("C25", "Basic rules match exactly the measurement name",
  "A basic rule matches a line if and only if its measurement equals the rule's name. (False of the code: only 32 bit FNV-1 hashes are compared; a concrete colliding pair is given. Proved: equal names always match, and a mismatch of hashes never matches.)",
  "every measurement and rule name",
  "A collision needs searching about 2^16 names; no unit test contains one.",
  "filter/rules.go: CreateBasicRule, hashMeasurement")
p("C26", "The filter emits tags in sorted order without changing the data",
  "For every parseable line with well-formed parts and a field section, the forwarded line parses to the same measurement, the same tags sorted by key and the same remainder; lines with sorted tags are forwarded unchanged byte for byte.",
  "every line, every number of tags, whichever of the two code paths (in-place or copy) is taken",
  "The in-place path overwrites the memory of the line; correctness depends on lengths.",
  "filter/rules.go: SortTags", "influx/tags.go")
p("C27", "Tag rules do not depend on the order of tags in the line",
  "Whether the filter routes a line to a tags rule depends only on the set of its tags. (False of the code: SortTags overwrites in place the memory the parsed tags still point into, so rules see scrambled tags for unsorted lines; proved for lines whose tags are already sorted and for lines taking the copying path.)",
  "every line and tags rule",
  "An aliasing bug that appears only for unsorted tags of differing lengths combined with tag rules.",
  "filter/rules.go: SortTags, CreateTagRule, LookupParsed", "filter/worker.go: processLine")
p("C28", "Filter routing delivers every line to exactly one place",
  "For every batch, each non-empty line is either counted invalid_time, or dropped as unparseable, or appended (tags sorted) to exactly one output: the subject of its first matching rule, or the junk subject; outputs contain nothing else and keep the input order.",
  "every batch content, rule set and clock value",
  "All batch contents and rule sets.",
  "filter/worker.go: processBatch, processLine, sendOff")
p("C29", "Filter counters add up",
  "After any history of batches: processed = passed + rejected + invalid_time + lines that failed to parse; passed equals the sum of the per-rule triggered counts; failed_nats_publish counts failed publishes.",
  "every history of batches and publish failures",
  "Unbounded histories.",
  "filter/worker.go: processBatch, processLine, publish")
p("C30", "Lines outside the time window are rejected",
  "A line carrying a nanosecond timestamp is forwarded only if now-max_time_delta < ts < now+max_time_delta. (False of the code for lines of at most 24 bytes, short timestamps, 20-character negative timestamps and ts = -1, which are treated as having no timestamp; proved for every line longer than 24 bytes ending in a 19-character timestamp.)",
  "every line, clock value and delta",
  "Depends on exact lengths and positions.",
  "filter/worker.go: processBatch, extractTimestamp", "influx/timestamps.go: ExtractNanos")
p("C31", "Concurrent filter workers neither lose, duplicate nor mix lines",
  "For every number of workers and every interleaving of their steps, the publishes made are a permutation of those each received message would produce alone, and the shared counters are the sums.",
  "every number of workers, every assignment of messages, every interleaving",
  "Schedules cannot be enumerated by tests.",
  "filter/filter.go: StartFilter", "filter/worker.go: run, processBatch", "stats/anonstats.go")
# ---------------------------------------------------------------- downsampler
p("C32", "Each point goes to the bucket of its period",
  "At any time the three buckets cover consecutive, aligned periods; a line with timestamp ts is added to the unique bucket whose period [end-period, end) contains ts, reported 'too old' below the first and 'too new' above the last; a line without timestamp uses the current time.",
  "every history of updates, emissions and clock readings, every positive period",
  "Histories and clock readings are unbounded.",
  "downsampler/assigner.go: newAssigner, Update, findBucket, Bytes, extractTimestamp")
p("C33", "Every period is emitted once, in order, and not before its grace period is over",
  "Periods are emitted in increasing consecutive order, each at most once, never before the end of the following period; every accepted line is part of exactly one emitted or still held bucket.",
  "every history with arbitrary clock readings",
  "Unbounded histories, late and early clock readings.",
  "downsampler/assigner.go: Bytes, UntilNext")
p("C34", "Integer fields are averaged",
  "The emitted integer value is the (truncated) mean of the accepted values. (False of the code: truncation at each step makes the error unbounded, e.g. 0,1,2,...,n yields 0; proved: without int64 overflow the value always lies between the smallest and largest value received, and one or equal values are exact.)",
  "every sequence of integer values",
  "The drift depends on the whole history.",
  "downsampler/avgbucket.go: intFieldValue.update")
p("C35", "String and boolean fields keep the latest value",
  "For a field first seen as string (or non-numeric), the emitted value is the last value received in the period, for every sequence of updates.",
  "every sequence of updates of a field",
  "Unbounded histories.",
  "downsampler/avgbucket.go: stringFieldValue.update, rawFieldValue.update")
p("C36", "A rejected line leaves the averages untouched",
  "A line for which AddLine reports errors does not change what is emitted. (False of the code for an existing series: fields before the faulty one are already applied; proved for series not yet present and for wrongly typed values of a single field.)",
  "every bucket state and line",
  "Needs partial failure at some field position in arbitrary state.",
  "downsampler/avgbucket.go: AddLine, fieldPairs.update")
p("C37", "Emitted batches have one line per series, stamped with the period's end",
  "A bucket's output consists of exactly one newline-terminated line per measurement+tags key accepted, 'key SP fields SP end-of-period', fields in name order, each once, in whatever map iteration order.",
  "every bucket history and every map iteration order",
  "Map iteration order is random; series sets are unbounded.",
  "downsampler/avgbucket.go: avgBucket.Bytes, fieldPairs.bytes")
p("C38", "Downsampled output is always valid line protocol",
  "Every emitted field value is a number, a quoted string or an unescaped-safe token. (False of the code: a field first seen as boolean and later as string is emitted unquoted.)",
  "every sequence of lines",
  "Needs a type change of a field within a period.",
  "downsampler/avgbucket.go: rawFieldValue, fieldPairs.update")
# ---------------------------------------------------------------- writer
p("C39", "The retry queue is bounded",
  "The number of batches kept for retry never exceeds writer_retry_batches.",
  "every history of additions, retries and clock values",
  "Unbounded histories.",
  "writer/retryworker.go: retryQueue.Add, CycleFront, DropFront")
p("C40", "Retried batches are neither lost nor duplicated",
  "Every batch given to the retry worker is at any time in exactly one of: still queued, written successfully (exactly once), permanently rejected, expired, or evicted by the size limit; batches are never altered.",
  "every history of inputs, timer expiries and write outcomes",
  "Unbounded histories and failure patterns.",
  "writer/retryworker.go: loop, retryQueue")
p("C41", "Retries respect interval and time-to-live",
  "Consecutive retry attempts start at least writer_retry_interval apart, and no attempt is started for a batch more than writer_retry_timeout after it was added.",
  "every timed history",
  "All timing histories.",
  "writer/retryworker.go: loop, Front")
p("C42", "Eviction discards the oldest batch",
  "When the retry queue is full the batch discarded is one with the smallest expiry time, and the others keep their order.",
  "every queue state",
  "Cycling reorders the queue, so age and position differ.",
  "writer/retryworker.go: Add, removeOldest")
p("C43", "Permanent errors are not retried",
  "A batch that InfluxDB rejects with a 4xx status is not sent again; 2xx is success; anything else is retried. (False of the code for the first attempt: the writer queues it for retry whatever the error; proved for the retry worker: after a permanent error or success a batch is never sent again.)",
  "every history of response codes",
  "All response sequences.",
  "writer/influxclient.go: Write, isHTTPClientError, isPermanentError", "writer/retryworker.go: loop", "writer/writer.go: worker")
p("C44", "The writer sends every accepted line to InfluxDB in order",
  "The bodies a worker POSTs (first attempts), followed by its pending batch, are the concatenation of the accepted data of the messages it received, in order; each body is at most batch_max_size (+1, see C11); with rules, exactly the lines matching some rule are accepted.",
  "every message sequence, rule set, timing and failure history",
  "Unbounded histories.",
  "writer/writer.go: worker, getBatchWriteFunc, filterLine, shouldSend")
p("C45", "The writer worker and its retry goroutine cannot deadlock",
  "In every reachable state of the pair (worker blocked handing over a chunk, full channels, failing database) some goroutine can take a step, and a pending hand-over can always be completed by the retry goroutine alone in a bounded number of steps.",
  "every interleaving of the two goroutines, every channel fill level",
  "Deadlocks depend on schedules.",
  "writer/writer.go: worker", "writer/retryworker.go: loop, reportWrite, reportError")
p("C46", "write_requests counts every write attempt",
  "write_requests equals the number of write attempts and is never smaller than failed_writes. (False of the code: a split batch counts as one request but each chunk may fail.)",
  "every history of batches and failures",
  "Needs a batch larger than the limit with failures.",
  "writer/writer.go: worker")
# ---------------------------------------------------------------- stats, prometheus, monitor
p("C47", "Counters are exact under concurrency",
  "After any interleaving of Inc and Max calls by any number of goroutines, a counter incremented n times reads n (mod 2^64); a counter updated by Max reads the maximum; every Max call returns a value at least its argument; values never decrease.",
  "every number of goroutines and every interleaving of their atomic steps",
  "Schedules cannot be enumerated.",
  "stats/anonstats.go: Inc, Max, Get, Snapshot")
p("C48", "Metrics survive the trip from component to monitor",
  "For every metric with a valid name and label names/values, ParseMetric(m.ToBytes()) returns the same name, value, timestamp and the labels sorted by name.",
  "every metric (any labels, any int64 value, any non-negative timestamp)",
  "Unbounded label lists and texts.",
  "prometheus/parse.go: ParseMetric, parseLabels", "prometheus/metric.go: ToBytes", "prometheus/labels.go: ToBytes")
p("C49", "Malformed metrics never crash the monitor",
  "ParseMetric returns an error for malformed input and never panics. (False of the code: e.g. 'ab{' indexes out of range; the exact shapes that panic are exhibited and absence of panics is proved for inputs without '{'.)",
  "every byte string",
  "Panics occur on truncated inputs only.",
  "prometheus/parse.go: ParseMetric, parseLabels", "monitor/monitor.go: receiveMetrics")
p("C50", "The monitor serves the latest value of every metric",
  "After any history of metric messages, /metrics lists exactly one line for each distinct name+labels received in a valid message, with the value and timestamp of the last such message, ordered by name and labels; a message with any malformed line changes nothing.",
  "every history of messages",
  "Unbounded histories; partial failures.",
  "prometheus/metricset.go: Update, UpdateFromSet, ToBytes", "monitor/monitor.go: receiveMetrics, serveHTTP")
# ---------------------------------------------------------------- config etc.
p("C51", "Validation accepts exactly the configurations that meet the stated conditions",
  "If validation accepts a configuration then: ports are in range, the mode is known, a listener has exactly one subject and a batch size of at most 1 MB, a filter's rules are complete, a downsampler has a period and suffix, a writer has a subject and consistent credentials; and each of these conditions is required.",
  "every configuration value",
  "All combinations of many fields.",
  "config/config.go: Validate, validateListener, validateFilter, validateDownsampler, validateWriter")
p("C52", "Building rules from a validated configuration does not panic",
  "RuleSetFromConfig never indexes out of range on a validated configuration. (Proved for filters. False for writers: writer validation neither allows tags rules without 'match' nor checks the length of tag pairs.)",
  "every configuration accepted by validation",
  "Needs particular malformed tag pairs in writer mode.",
  "filter/rules.go: RuleSetFromConfig", "config/config.go: validateFilter, validateWriter")
p("C53", "Configuration precedence",
  "Each option's value is the one in the given file if set there, else the one in /etc/influx-spout.toml, else the documented default (including mode dependent defaults for port, batch size and downsample period).",
  "every pair of configuration files",
  "All combinations of set/unset options.",
  "config/config.go: NewConfigFromFile, newDefaultConfig")
p("C54", "Readiness follows the component life cycle",
  "A component answers ready only after its start-up completed and before Stop was called; alive until Stop; after any interleaving of probe requests with these updates.",
  "every interleaving of requests and state changes",
  "Interleavings.",
  "probes/probes.go", "listener/listener.go: Stop", "filter/filter.go: Stop")
p("C55", "The UDP receive buffer is rounded up to whole pages",
  "roundUpToPageSize(n) is the smallest positive multiple of the page size that is at least n.",
  "every requested size and page size",
  "Boundary arithmetic over all integers.",
  "listener/listener.go: roundUpToPageSize")
p("C56", "End to end: every line sent reaches InfluxDB exactly once",
  "Lines sent to a listener (UDP, or HTTP with newline-terminated bodies), routed by a filter and consumed by rule-less writers: once all are idle, if NATS accepted and delivered each message to one consumer of its subject, the lines POSTed by the writers (or still in their buffers) are, with multiplicity, exactly the forwarded forms of the lines sent that belong on the writers' subjects - unchanged for in-window lines with sorted tags - and if no batch was given up they are the lines InfluxDB acknowledged. With one filter worker and one writer worker they are also in the order received. (For lines not affected by C25 and C27 and that are not field-less with unsorted tags.)",
  "every sequence of datagrams or requests, batching configuration, number of workers, interleaving, assignment of messages to writers, and history of write failures and retries",
  "Composition of three concurrent components with independent batching.",
  "listener/listener.go", "filter/worker.go", "filter/filter.go", "writer/writer.go", "writer/retryworker.go")
p("C57", "Downsampler worker: every message and emitted bucket accounted for",
  "For every sequence of messages and timer events: received counts the messages, the published messages are exactly the texts of the emitted buckets in order, cut into non-empty chunks of at most 1 MB (+1 byte) at line ends, and the sent, failed, invalid_lines and invalid_timestamps counters equal the numbers of non-empty buckets emitted, failed publishes and the two classes of line errors.",
  "every history of messages, timer events, clock readings and publish failures",
  "Unbounded histories and outcomes.",
  "downsampler/downsampler.go: worker", "downsampler/assigner.go: Update, Bytes, isTimestampError")
p("C58", "Retries are fair",
  "Between two attempts of one failed batch, every other batch waiting at the first attempt is attempted, expires or is evicted.",
  "every history of inputs, timer expiries and write outcomes",
  "Ordering over unbounded histories.",
  "writer/retryworker.go: loop, CycleFront")
p("C59", "A writer holds back only a small, young batch",
  "Whenever a worker waits for events, the data it holds are the writes since its last flush, fewer than batch_max_count and smaller than batch_max_size, and when it last woke up the oldest of them was younger than batch_max_age.",
  "every interleaving of messages, ticks, retry reports and write outcomes",
  "Unbounded histories and clock readings.",
  "writer/writer.go: worker, shouldSend")
p("C60", "Every byte the writer accepted is accounted for, also when it stops",
  "At any time, in particular after Stop, every posted body was answered 2xx or is exactly one of delivered by a retry, still queued, rejected, expired, evicted; the rest of the accepted data is the pending batch. Stop sends neither the pending batch nor the queue (so 'Stop loses nothing' is false of the code).",
  "every history, including stops at every point",
  "Crash points and interleavings.",
  "writer/writer.go: Stop, worker", "writer/retryworker.go: loop")
p("C61", "The monitor shows what the components report",
  "For every history of reports (snapshots of counters and single counters, with plain names and distinct plain labels) sent by components and every GET of /metrics: the monitor does not crash, and the response has exactly one line per reported metric, with the value and time of its last report, in order.",
  "every history of reports and GETs, every counter value, every map iteration order",
  "Unbounded histories; the sender's renderer, the parser and the monitor's renderer have to agree.",
  "stats/prometheus.go: SnapshotToPrometheus, CounterToPrometheus", "prometheus/parse.go: ParseMetrics", "prometheus/metricset.go", "monitor/monitor.go: receiveMetrics")
p("C62", "Statistics carry the right labels although label slices are shared",
  "In every round of the filter's, downsampler's and writer's statistics, the snapshot carries the component's labels and each per-subject or per-rule counter carries the component's labels plus the label of its own subject or rule, although With appends to a slice that may be shared and rendering sorts it in place.",
  "every number of rounds, rules and subjects",
  "Aliasing of append depends on array capacities.",
  "prometheus/labels.go: With, ToBytes, sort", "filter/filter.go: startStatistician", "downsampler/downsampler.go: startStatistician", "writer/writer.go: startStatistician")

p("C63", "An accepted configuration gives a component that serves messages",
  "For every accepted configuration the mode is one the program can run and starting it creates at least one goroutine that processes messages. (False of the code: a filter accepts workers = 0 and then processes nothing, a negative number of writer workers panics, a downsampler accepts an empty subject list and a negative period. The exact conditions are proved.)",
  "every configuration accepted by validation and every processor count",
  "All combinations of options.",
  "config/config.go: Validate", "cmd/influx-spout/main.go: runMode", "filter/filter.go: StartFilter", "writer/writer.go: StartWriter")
p("C64", "A component is named after its file",
  "If no name is configured, the component's name is the file's base name without its last extension.",
  "every path",
  "All paths.",
  "config/config.go: pathToConfigName")
p("C65", "Batch sizes are usable",
  "Whatever the files set (sizes cannot be negative), a loaded configuration has a batch size of at least 1, and a listener's is at most what fits in a NATS message.",
  "every pair of configuration files",
  "All combinations of options.",
  "config/config.go: NewConfigFromFile, validateListener")

p("C66", "Float fields are averaged accurately",
  "For a float field, the emitted value lies between the smallest and the largest number received in the period and differs from their exact mean by at most (n+1)/2*(4*2^-53*M + 2^-1075), where n is the count and M the largest magnitude, provided the difference between the largest and smallest is not beyond float64's range; equal numbers are kept exactly. One NaN or infinity makes the result NaN or infinite (line protocol readers reject such lines), and without the proviso finite numbers can average to infinity.",
  "every sequence of float64 values received, every rounding along the way",
  "Rounding errors accumulate over unbounded histories; the worst cases are rare bit patterns.",
  "downsampler/avgbucket.go: floatFieldValue.update, newFloatFieldValue")

p("C67", "Stopping the filter terminates and never half-processes a message",
  "After Stop is called and its subscription ended, the filter's workers make only boundedly many more steps, whatever the scheduler does, and when no further step is possible all have returned, so Stop returns. Every message was then processed completely (each of its lines classified, published or counted) or not at all; the messages not processed are the last ones received and at most the 1024 of the queue.",
  "every number of workers, history of messages, scheduling and instant of Stop",
  "A deadlock or half-processed message shows only under particular interleavings of Stop with the workers.",
  "filter/filter.go: Stop, StartFilter", "filter/worker.go: worker")
p("C68", "An acknowledged HTTP write was accepted completely",
  "If a POST /write is answered with 204, all lines of its body were taken into the batch (with timestamps converted to nanoseconds) and are published or pending.",
  "every body, precision, network behaviour and interleaving of concurrent requests",
  "Depends on how reads are chunked, on errors in the middle of a body and on the other requests.",
  "listener/listener.go: handleHTTPWrite, readHTTPBody, processRead", "listener/batch.go: ReadFrom, readOnceFrom")
p("C69", "Accepted lines are in some emitted average",
  "Every line the downsampler accepts (no error counted) is part of the bucket of its period, and that bucket is emitted, also when the downsampler is stopped.",
  "every history of messages and clock readings, every instant of Stop",
  "Crash and stop points are unbounded in number.",
  "downsampler/downsampler.go: worker, Stop", "downsampler/assigner.go: Update, Bytes")

p("C70", "Downsampled data end to end",
  "From the messages on a subject to InfluxDB: for every period that is over, in order, InfluxDB receives (or the writer still holds) exactly one line for each series with points accepted in that period, each averaging exactly the points of its series in that period, and nothing else.",
  "every history of messages, clock readings and map iteration orders, every run of the writer",
  "Composition of three components over unbounded histories.",
  "downsampler/downsampler.go: worker", "downsampler/assigner.go: Update, Bytes", "downsampler/avgbucket.go: AddLine, Bytes", "writer/writer.go: worker")
p("C71", "The filter's messages are no larger than the messages it received",
  "For a received message, the messages the filter publishes are together no larger, so that a message NATS accepted once is accepted again.",
  "every message, rule set and clock",
  "All lines and tag orders; the length changes only for particular escapes.",
  "filter/worker.go: processBatch, sendOff", "filter/rules.go: SortTags", "influx/tags.go: Bytes")
p("C72", "influx-spout-tap prints the stream verbatim",
  "influx-spout-tap prints exactly the lines received that match the -e expression (all lines without it), unchanged and in order.",
  "every message and expression",
  "All bytes a line can contain.",
  "cmd/influx-spout-tap/influx-spout-tap.go: process")

p("C73", "ParseTags accepts exactly well-formed lines",
  "Tag parsing accepts a line exactly if its measurement and tags are well formed (non-empty parts, delimiters inside a part escaped) and returns the measurement and tags unescaped; every other line is rejected.",
  "every byte string",
  "All byte strings, well formed or not: a soundness and a completeness claim.",
  "influx/tags.go: ParseTags", "influx/token.go: TokenEscaped", "influx/unescape.go: Unescape")
p("C74", "The downsampler accepts exactly well-formed field sections",
  "The averaging bucket takes in a field section exactly if it is a comma separated list of name=value with each value well formed; otherwise the line is reported as an error.",
  "every byte string, bucket state and float implementation",
  "All byte strings and all bucket states.",
  "downsampler/avgbucket.go: AddLine", "influx/token.go: QuotedString, TokenEscaped")
p("C75", "The monitor shows every rule's count",
  "After a component's statistics messages have been received the monitor's /metrics shows, for every filter rule (every downsampler subject), a line with its label and its current count.",
  "every history of statistics rounds, labels, counts and sorting algorithm",
  "All rule sets, histories and map iteration orders.",
  "filter/filter.go: startStatistician", "downsampler/downsampler.go: startStatistician", "stats/prometheus.go: CounterToPrometheus", "monitor/monitor.go", "prometheus/metricset.go")

p("C76", "Scaled-out deployments lose and duplicate nothing",
  "With any number of listeners, filters sharing their queue group, and writers without queue group or sharing one, once everything is at rest and every message was delivered, the lines written by each lone writer (by all members of a queue group together) are exactly, with multiplicity, the forwarded forms of the lines sent to all the listeners that belong on the writer's subjects.",
  "every number of listeners, filters and writers, every distribution of messages among queue group members, every interleaving, rule set and input",
  "All topologies, schedules and choices of the message broker.",
  "listener/listener.go", "filter/filter.go: StartFilter", "writer/writer.go: StartWriter", "README.md")
p("C77", "Every accepted configuration handles each line once",
  "With any configuration that validation accepts, a line sent to a listener is handled by a filter exactly once and received by a writer exactly once.",
  "every accepted configuration, input and schedule",
  "All configurations, and executions of any length.",
  "config/config.go: Validate", "filter/filter.go: StartFilter", "writer/writer.go: StartWriter")
p("C78", "Writes go to the configured database with the configured credentials",
  "The database and the user name and password that InfluxDB reads out of the writer's requests are the configured ones, for every accepted configuration.",
  "every accepted configuration (database name, address, user, password) and both query separator conventions of Go servers",
  "All byte strings as database name, user and password.",
  "writer/influxclient.go: newInfluxClient, Write", "config/config.go: validateWriter")
p("C79", "A slow HTTP client does not hold up others",
  "A client that sends its request body slowly, or stops half way, does not delay the acknowledgement of other clients' writes or the publication of data that has already been acknowledged. (False: bodies in nanoseconds are read under the batch's mutex, and the server has no read timeout; bodies in other precisions are read without it.)",
  "every interleaving of the Read calls of all requests, the lock, and the age checking goroutine",
  "A client may pause between any two Read calls, for any time.",
  "listener/listener.go: handleHTTPWrite, readHTTPBodyNanos, readHTTPBodyWithPrecision, oldBatchSender")
p("C80", "A component that cannot start leaves nothing behind",
  "Starting a component succeeds exactly when every call it depends on succeeds; if any of them fails, at whatever point, the error is returned, there is no panic, and no connection, subscription, socket, server or goroutine is left; the same after Stop. (False of the listeners: the probe server stays when NATS cannot be reached, the UDP socket when its buffer size cannot be set.)",
  "every component, number of workers and subjects, and every set of failing calls",
  "Every start-up call can fail, with any number of workers already running.",
  "listener/listener.go: StartListener, StartHTTPListener, newListener, setupUDP, Stop", "filter/filter.go: StartFilter, Stop", "downsampler/downsampler.go: StartDownsampler, Stop", "writer/writer.go: StartWriter, Stop", "monitor/monitor.go: Start, Stop")
p("C81", "max_time_delta: a wider window accepts more, and lines without a timestamp pass",
  "Raising max_time_delta never causes more lines to be rejected, and a line without a timestamp, which is given the current time, is never rejected for its time. (False: 0 and negative values reject everything, and so does a value so large that the current time plus it overflows int64, e.g. 290 years to switch the check off; proved for all values in between.)",
  "every message, clock reading and value of max_time_delta",
  "The bounds are computed in wrapping 64-bit arithmetic; all values must be considered.",
  "filter/worker.go: processBatch, extractTimestamp",
  "config/config.go: MaxTimeDelta")
p("C82", "No message is lost between NATS and the writer's workers",
  "At any moment, every message delivered to one of the writer's subscriptions was either counted in nats_dropped, or is still waiting in the NATS client or in the writer's queue, or was taken by exactly one worker, once. A message is dropped exactly when it does not fit under nats_max_pending_size, waiting messages never exceed that size, messages of a subject enter the queue in order, and a worker that was not told to stop can always come back and take the next message.",
  "all configurations, numbers of subjects and workers, message sequences, database answers and interleavings of subscriptions, workers and retry goroutines",
  "the interleavings of callbacks, a bounded channel and several workers are unbounded; tests use a handful of messages and see one schedule",
  "writer/writer.go StartWriter",
  "writer/writer.go worker",
  "writer/writer.go startStatistician")
p("C83", "The writer stores data in the order it arrived",
  "Lines received earlier are stored in InfluxDB before lines received later, so that the last value sent for a point is the one that stays.",
  "all schedules, numbers of workers and database answers",
  "the overtaking needs a particular interleaving of two workers or a failed write",
  "writer/writer.go worker",
  "writer/retryworker.go loop")
p("C84", "Stopping a writer ends its callbacks",
  "After Stop has returned no goroutine of the writer is left blocked: in particular a NATS callback that was handing over a message finishes.",
  "all states in which Stop can happen",
  "needs a queue of 1024 messages full at the moment of Stop",
  "writer/writer.go Stop",
  "writer/writer.go StartWriter")
p("C85", "What NATS delivers to a filter or a downsampler is processed or counted as dropped",
  "At any moment, every message delivered to the filter's subscription, or to one of the downsampler's, was either counted in nats_dropped (exactly when it does not fit under nats_max_pending_size), or is waiting in the NATS client or in the channel to the workers, or was taken by exactly one worker; kept messages are taken in order of arrival, and once everything is at rest exactly the kept messages were processed, once each.",
  "all configurations, message sequences, numbers of filter workers and interleavings of the NATS callback with the workers and their clock ticks",
  "the interleavings of callback, bounded channel and workers are unbounded; tests see one schedule",
  "filter/filter.go StartFilter",
  "filter/filter.go updateNATSDropped",
  "downsampler/downsampler.go StartDownsampler",
  "downsampler/downsampler.go worker")
p("C86", "Behind a first filter, lines are stable and tag rules are right",
  "Every message a filter publishes consists of whole lines that say the same as lines of its input (same measurement, tags, fields and time). A second filter subscribed to it finds none of them malformed, changes none of them again, and routes each by the first rule that is meant to match the original measurement and tags, whatever the order of the tags was originally; only the first filter can be misled by the order of tags.",
  "all batches of terminated lines whose names and tags the line protocol can express, all rule lists and clocks of both filters, all publish outcomes",
  "composition of two services over all inputs; tests run one filter on one line",
  "filter/worker.go processLine",
  "filter/rules.go LookupParsed",
  "influx/tags.go SortTags")
p("C87", "nats_max_pending_size is what waits, and zero is refused",
  "A filter, downsampler or writer starts exactly if the configured size is not zero and nothing else it needs fails. Then, at any moment, a message NATS delivers is dropped exactly when it does not fit under the configured size together with the messages waiting or in the hands of the callback, never more than that many bytes wait, and a message larger than the size is never taken.",
  "all configured sizes (64-bit), all numbers of workers and subjects, all histories of arrivals and callbacks",
  "histories are unbounded, and the conversion of the size to a signed integer matters only for sizes no test uses",
  "filter/filter.go StartFilter",
  "downsampler/downsampler.go StartDownsampler",
  "writer/writer.go StartWriter")
p("C88", "Killing and restarting components: nothing is invented or multiplied",
  "At any moment, and whichever components were killed at whatever points and started again, the lines InfluxDB has acknowledged are, with multiplicity, part of the forwarded forms of the lines sent to the listeners: no line is invented, and none is acknowledged more often than it was sent. A listener killed after a read takes with it only the last lines that arrived, less than a batch.",
  "all numbers of listeners, filters and writers, all histories of each cut at any point, all interleavings of their workers, all losses on the way",
  "crash points and histories are unbounded",
  "cmd/influx-spout/main.go main",
  "listener/listener.go listenUDP",
  "filter/worker.go processBatch",
  "writer/writer.go worker")
p("C89", "Retried writes leave each point in InfluxDB once",
  "Once the writers have settled without giving up a batch, InfluxDB holds exactly the points of the lines they received, for lines that carry time stamps and do not contradict each other, whichever of the unacknowledged attempts it carried out nevertheless, how often and in which order. Lines without a time stamp can be held several times, and a corrected value can come back.",
  "all numbers of workers and batches, all histories of answers, losses and retries, all choices of the unacknowledged attempts that were carried out, all orders of arrival at InfluxDB",
  "which attempts were carried out before their answer was lost cannot be enumerated by tests",
  "writer/writer.go worker",
  "writer/retryworker.go loop",
  "writer/influxclient.go Write")
p("C90", "The program runs the configured component or says why not",
  "Given one file name, a configuration that can be loaded and a start in which nothing fails, the program runs the component its mode names with the configured number of workers, and only then. It crashes exactly for a filter or writer with a rule that cannot be built, and for a writer with a negative number of workers that reaches NATS. In all other cases it ends with status 1; it never ends silently.",
  "all command lines, all contents of the files and the environment, all combinations of failing calls",
  "the combinations of configuration values and failures are unbounded",
  "cmd/influx-spout/main.go main",
  "cmd/influx-spout/main.go runComponent",
  "cmd/influx-spout/main.go getConfigFileName")
p("C91", "benchcheck fails exactly on regressions",
  "benchcheck ends with status 1 exactly when some benchmark measured in both files became significantly worse by more than the maximal delta. Holds for costs (time, memory, allocations); for speeds (MB/s) improvements are reported as regressions and regressions are not reported.",
  "all tables of benchmarks, all deltas, all limits",
  "tables and values are unbounded",
  "cmd/benchcheck/benchcheck.go findProblems",
  "cmd/benchcheck/benchcheck.go main")
p("C92", "Data stay in a component no longer than its batch_max_age",
  "At each check of a UDP or HTTP listener, everything that arrived at least batch_max_age earlier has been handed to NATS; at each wake-up of an idle writer worker, everything from messages at least batch_max_age old has been POSTed; a filter that is done holds nothing. So what reached the listener is POSTed after both ages plus the checking intervals and the delay of NATS.",
  "all configurations, all reads, requests, messages and schedules, all clocks",
  "the histories, their interleavings and the times are unbounded",
  "listener/listener.go listenUDP",
  "listener/listener.go oldBatchSender",
  "listener/listener.go maybeSendBatch",
  "writer/writer.go worker",
  "writer/writer.go shouldSend",
  "batch/batch.go Age")
p("C93", "Idle components do not spin",
  "The age check of the HTTP listener runs at most twice within any stretch shorter than batch_max_age, and the statistics of a component are published no more often than stats_interval. (False for accepted configurations in which the duration is zero or negative: the loop never waits.)",
  "all requests, schedules and clocks; all intervals",
  "how often a loop runs depends on every interleaving with the requests",
  "listener/listener.go oldBatchSender",
  "listener/listener.go startStatistician",
  "filter/filter.go startStatistician",
  "writer/writer.go startStatistician",
  "downsampler/downsampler.go startStatistician",
  "config/config.go Validate")
p("C94", "Sizes and durations in a configuration mean what they say",
  "A text without decimal point is accepted as a duration exactly when it is an optional sign and a sum of whole numbers with the units ns, us, ms, s, m and h (or zero) that fits 64 bits, and it then is exactly that many nanoseconds; equal amounts in different units are equal. A text is accepted as a size exactly when it is a number, optional spaces and an optional unit in any case (but no abbreviation of bits), or empty, and fits 64 bits, and it then is exactly that many bytes with units of powers of 1024. A number without unit is a size in bytes, and no duration unless zero.",
  "all ASCII texts of sizes, all texts of durations without decimal point",
  "the texts are unbounded and the arithmetic overflows only for huge numbers",
  "config/duration.go Duration.UnmarshalText",
  "config/config.go Config (BatchMaxSize, ReadBufferSize, NATSMaxPendingSize and the durations)",
  "README.md Byte Sizes, Time Durations")
p("C95", "A writer's rules are configured as those of a filter",
  "The rules a filter accepts are, without their subjects, rules a writer accepts, and the writer keeps exactly the lines that one of the filter's rules takes. (False for tags rules: the writer insists on 'match', which a filter forbids there; exactly the rule lists without tags rules carry over, in both directions.)",
  "all configurations, rule lists and lines",
  "the rule lists and lines are unbounded",
  "config/config.go validateWriter",
  "config/config.go validateFilter",
  "filter/rules.go RuleSetFromConfig",
  "filter/rules.go Lookup",
  "writer/writer.go worker",
  "README.md Writer")
p("C96", "A write counted as successful was taken by the server",
  "When the writer treats a chunk as written, a server has answered 2xx to a POST carrying exactly that chunk, and to no other request of that write. (False: the HTTP client follows redirects, and after a 301, 302 or 303 it asks with GET and without the data. Exactly the writes without such a redirect are delivered.) A write makes at most ten requests and begins with a POST to the configured URL.",
  "all servers (any answer depending on everything before), URLs and chunks",
  "the servers and their histories are unbounded",
  "writer/influxclient.go newInfluxClient",
  "writer/influxclient.go Write",
  "writer/influxclient.go isHTTPPOSTSuccess")
p("C97", "An accepted writer configuration never crashes a worker",
  "No accepted batch_max_size and writer_retry_batches make a writer's worker panic. (False for a batch_max_size of 8 EB and more, which becomes a negative int, and for huge writer_retry_batches, for which the report channels cannot be made; proved exactly which values panic, and that with all others the chunks are those of C10-C12.)",
  "all 64-bit values of both options and all batches",
  "the arithmetic wraps only at the ends of the range",
  "writer/writer.go worker",
  "writer/retryworker.go newRetryWorker",
  "batchsplitter/batch_splitter.go New",
  "batchsplitter/batch_splitter.go Next",
  "config/config.go validateWriter")
p("C98", "The way the network cuts up an HTTP body does not change what is kept of it",
  "For an HTTP write with a timestamp precision, however the body's bytes are cut into network reads (any sizes, empty reads, the end of the body reported with or after its last byte), if reading ends without an error the lines handled are exactly the lines of the body; if reading fails they are the lines of the part delivered; if a line is too long they are the lines before it; and reading always ends or waits for the network.",
  "every body, every sequence of reads (sizes, empty reads, errors), every moment the end is reported",
  "a test delivers a body in one or two fixed ways; the buffer moves, grows and refuses at boundaries that depend on the sequence of reads",
  "listener/listener.go:readHTTPBodyWithPrecision",
  "listener/listener.go:scanLines")
p("C99", "A downsampler does not get its own output as input",
  "With every configuration that validation accepts, what a downsampler publishes (on each input subject followed by the suffix) is never delivered back to it, so each measurement is averaged into the period it belongs to, once.",
  "every list of input subjects (with NATS wildcards), every suffix, every start time, every number of periods",
  "a feedback needs a particular pair of subject pattern and suffix and shows only after several periods; tests use one literal subject and one period",
  "downsampler/downsampler.go:StartDownsampler",
  "downsampler/downsampler.go:worker",
  "config/config.go:Validate")
p("C100", "A message matching a component's subjects reaches it once",
  "A writer receives exactly one copy of each message published on a subject it is configured for, and a filter receives each message published on its subject.",
  "every list of configured subjects (with NATS wildcards), every queue group, every published subject, every choice of the queue groups",
  "the number of copies depends on how all the configured patterns overlap with all published subjects",
  "writer/writer.go:StartWriter",
  "filter/filter.go:StartFilter",
  "downsampler/downsampler.go:StartDownsampler")
p("C101", "A batch is forwarded exactly when a documented limit is reached",
  "A listener or writer forwards its batch exactly when one of batch_max_count, batch_max_size, batch_max_age is reached, never earlier and never an empty one, where batch_max_count counts received packets (UDP listener), HTTP writes (HTTP listener) and messages (writer). (False as to the counting: an HTTP listener counts each line of a write that has a precision other than ns, and a writer with rules counts each line kept; exact otherwise.)",
  "every history of messages, requests, datagrams, timer wake-ups and clock readings, every interleaving, every limit, every set of rules",
  "each limit is reached by accumulation over a history, in combination with the others",
  "writer/writer.go:worker",
  "writer/writer.go:getBatchWriteFunc",
  "writer/writer.go:shouldSend",
  "listener/listener.go:shouldSend",
  "listener/listener.go:readHTTPBodyWithPrecision",
  "listener/listener.go:oldBatchSender",
  "README.md")
p("C102", "The numbers of a statistics report agree with each other",
  "The counters of a statistics report of a filter agree: passed + rejected + invalid_time never exceeds processed, the rules' triggered counts never add up to more than passed, and no number is ever smaller in a later report. (False as to one report: the counters are read one at a time in an order Go chooses, so a report may show more passed than processed or more triggered than passed; the counters themselves always agree, each number shown is right for a moment while the report was made, the disagreement is at most the lines dealt with meanwhile, and a report made while the workers are idle is exact.)",
  "every number of workers, every set of rules, every messages, every interleaving of the atomic operations of the workers and of the statistician, every map iteration order",
  "the report is read counter by counter while the workers run: a test sees one interleaving and one map order",
  "stats/stats.go:Snapshot",
  "stats/anonstats.go:Snapshot",
  "filter/filter.go:startStatistician",
  "filter/worker.go:processBatch",
  "filter/worker.go:processLine")
p("C103", "No received data makes a listener, filter, downsampler or writer panic or hang",
  "Whatever bytes arrive, in whatever pieces and order, no listener, filter, downsampler or writer panics on them or loops for ever: no index or slice expression is out of range, no division is by zero, no missing map entry is used, every loop ends; what is done instead is what the other properties say. (For the downsampler as long as fewer than 2^63 - 1 bytes arrive in all; for the writer with a batch size between 1 and 2^63 - 1, see C97. The monitor can be made to panic, see C49.)",
  "every byte string as message, datagram or request body, every sequence of them, every way the Read calls deliver them and whatever they leave in the spare memory, every rule set, every configuration of sizes within the stated limits",
  "the parsing code is index arithmetic on untrusted bytes: a test tries some strings, and one out-of-range index takes the whole process down",
  "influx/token.go:Token",
  "influx/token.go:TokenEscaped",
  "influx/token.go:QuotedString",
  "influx/unescape.go:Unescape",
  "influx/tags.go:ParseTags",
  "influx/timestamps.go:ExtractTimestamp",
  "convert/convert.go:ToInt",
  "batch/batch.go:ReadFrom",
  "batch/batch.go:grow",
  "batch/batch.go:appendImpl",
  "batchsplitter/batch_splitter.go:Next",
  "filter/worker.go:processBatch",
  "filter/worker.go:processLine",
  "filter/worker.go:sendOff",
  "downsampler/avgbucket.go:update",
  "downsampler/assigner.go:Update",
  "writer/writer.go:filterLine",
  "listener/listener.go:scanLines",
  "listener/listener.go:sendBatch")
p("C104", "Buffer memory is bounded by the configuration",
  "Whatever is received, the memory taken by a component's buffers is bounded by its configuration: a UDP listener's batch buffer keeps its configured size (128 KB if less than 64 KB is configured); a writer worker's buffer, the failed batches waiting to be written again, the jobs channel and the pending messages of every subscription stay within bounds given by batch_max_size, retry_batches, workers, the largest message and the pending limits; an HTTP listener's buffer is bounded likewise.",
  "all sequences of datagrams; all requests, bodies, deliveries and interleavings; all histories of messages, write outcomes and retries of a writer with any number of workers",
  "a test sees the memory after the load it generated; the claim is about every load",
  "batch/batch.go:100-190",
  "listener/listener.go:186-311 listenUDP, handleHTTPWrite",
  "listener/listener.go:365-411",
  "writer/writer.go:147-243 worker",
  "writer/retryworker.go:88-229")
p("C105", "The downsampler does not discard measurements of the present",
  "While a downsampler keeps up with the clock (every turn of its loop is over less than a period after the end of the aggregation period in which the previous one was over), a line is discarded because of its timestamp only if that lies more than a period before, or about a period or more after, the clock's time when the line is read; lines without a timestamp are never discarded. Lines two periods (plus the delay) off are always discarded.",
  "every bucket implementation, period, delay below a period, start time, sequence of turns (messages or timer, any content) and clock readings",
  "depends on how the three open buckets move with arbitrary sequences of clock readings, relative to timer, stalls and clock steps; the unit tests use a fake clock at a few instants",
  "downsampler/assigner.go:41-173 newAssigner, Update, Bytes, UntilNext, findBucket",
  "downsampler/downsampler.go:139-180 worker")
p("C106", "The order in which points arrive does not change a period's averages",
  "What a downsampler publishes for a period does not depend on the order in which the period's points arrived: lines of different series may be interleaved in any way (any malformed lines included), and the order of a series' own points does not change the averages of its numeric fields.",
  "every set of lines, every interleaving or permutation of them, every map iteration order, every sorting function, every value range",
  "quantifies over all orders of arrival; the tests feed one order",
  "downsampler/avgbucket.go:44-78 AddLine, Bytes",
  "downsampler/avgbucket.go:198-260 field values",
  "downsampler/assigner.go:95-132 Update, Bytes")
p("C107", "How lines are grouped into NATS messages does not matter",
  "Splitting or merging the messages on a subject without changing their lines or the order of the lines does not change what a component makes of them: a filter publishes the same lines in the same order on every subject and counts the same, a writer posts the same data in the same order, a downsampler averages the same lines into the same periods and refuses the same lines.",
  "every sequence of lines, every two ways of grouping it into messages, all clock readings, rules, timer events and POST outcomes",
  "quantifies over all pairs of groupings; the tests use one grouping each",
  "filter/worker.go:88-151 processBatch, processLine, sendOff",
  "writer/writer.go:180-280 worker",
  "downsampler/assigner.go:95-132 Update, Bytes")
p("C108", "Old data leave no traces",
  "What a component does with new data does not depend on data it is done with, and it does not keep them: a filter treats every message as if it were its first; a downsampler answers as any downsampler that accepted the same lines in the three open periods, holds only the series of these lines, and after three periods of silence is as new; a monitor does not keep metrics of hosts that are gone.",
  "every history of messages, clock readings, outcomes of publishing, bucket implementation and period length; every two histories that agree on the recent lines",
  "quantifies over all pairs of histories of any length; a leak of state shows only in long runs",
  "filter/worker.go:57-151 processBatch, sendOff",
  "downsampler/assigner.go:51-132 newAssigner, Update, Bytes, AddLine",
  "downsampler/avg/bucket.go:30-66 AddLine",
  "monitor/monitor.go:142-152 receiveMetrics",
  "prometheus/metricset.go:44-63 Update, UpdateFromMetricSet")
p("C109", "A write request's precision is the one its query says, and nothing else of the request matters",
  "For every list of query parameters, in any order and any escaping a client may use, the listener handles a request to /write with the value of the first parameter named precision (nanoseconds if there is none or it is empty); requests that differ only in method, header fields, other parameters, their order or their escaping have the same effect at every moment of every schedule; requests to other paths have none; and unknown precisions, other methods than POST and compressed bodies are refused. (The last part is false of the code: unknown units are taken for nanoseconds, every method writes, Content-Encoding is ignored.)",
  "all parameter lists and their encodings, both behaviours of net/url with semicolons, all request lists, interleavings and clock readings",
  "the encodings of a query and the interleavings of requests are unbounded; tests use one query per precision",
  "listener/listener.go:setupHTTP",
  "listener/listener.go:handleHTTPWrite",
  "listener/listener.go:readHTTPBody",
  "influx/timestamps.go:getPrecisionMultiplier")
p("C110", "Editing the filter's rules changes only what the edit says",
  "For every message and every clock reading: inserting (or deleting) a rule moves exactly the lines that rule fits and no earlier rule fits, and leaves every other line where it went; appending a rule leaves every other rule's message unchanged and splits what went to junk; a rule that fits only lines earlier rules fit (a repeated condition, or more tags than an earlier tags rule asks for) changes nothing that is published, over any history; changing the order of rules that never fit the same line only changes the order of the messages; and changing subjects only changes subjects.",
  "all rule lists, edits, messages, clock readings, publish outcomes and histories of messages",
  "it compares two programs' outputs on every input; tests run one configuration on a few lines",
  "filter/rules.go:LookupParsed",
  "filter/rules.go:Subjects",
  "filter/worker.go:processBatch",
  "filter/worker.go:sendOff")
p("C111", "A counter on the metrics page never goes down or away while its component runs",
  "For every history of reports and GETs: a metric shown by one answer of the monitor is shown by every later answer, with a value at least as large, as long as its component runs - whatever the schedule of the component's goroutines, the order in which it reads its counters and the reports lost on the way. (False of the code: the triggered counters of a filter's rules are told apart by subject only, so two rules with one subject share a metric and the page shows now the count of one, now of the other.)",
  "all monitor histories, all filter configurations and workloads, schedules, map orders and losses of reports",
  "two answers are related through every interleaving of workers, statistics rounds and losses; tests look at one report",
  "filter/filter.go:startStatistician",
  "stats/stats.go:Snapshot",
  "stats/prometheus.go:CounterToPrometheus",
  "monitor/monitor.go:receiveMetrics",
  "prometheus/metrics.go:Update")
p("C112", "write_timeout bounds every write to InfluxDB, and a write which times out is dropped",
  "A writer waits for at most write_timeout for any write to InfluxDB, whatever InfluxDB does, so a batch of n chunks keeps a worker from receiving for at most n times write_timeout; a write which timed out is dropped (README: Writes which time out will be dropped).",
  "all behaviours of InfluxDB (no answer, late answer, any status), all batches, all interleavings of a worker and its retry goroutine, all values of write_timeout an accepted configuration can have",
  "InfluxDB may stay silent or answer at any moment and the write may be retried at any later moment; a test fixes one behaviour and waits for one timeout",
  "README.md:464-466 write_timeout",
  "writer/influxclient.go:34-43 Timeout",
  "writer/influxclient.go:56-83 Write",
  "writer/writer.go:184-206 worker",
  "writer/retryworker.go:88-121 loop")
p("C113", "A component serves on every port its configuration names, or says why not",
  "A component which was started serves data (or /metrics), probes and pprof on port, probe_port and pprof_port if they are configured; if it cannot open one of them it exits or logs an error; and it reports ready only when its own port is open.",
  "all configurations, all sets of sockets other processes hold, all interleavings of the goroutines which open the ports",
  "the ports are opened by goroutines which race with each other and with Start, and what other processes hold is arbitrary; a test runs one schedule on free ports",
  "README.md:177-183",
  "probes/probes.go:49-76 Listen",
  "cmd/influx-spout/main.go:80-97 runComponent",
  "listener/listener.go:66-97 StartListener, StartHTTPListener",
  "listener/listener.go:151-159",
  "listener/listener.go:181-187 listenUDP",
  "listener/listener.go:349-358 listenHTTP",
  "monitor/monitor.go:64-65 Start",
  "monitor/monitor.go:124-135 serveHTTP",
  "config/config.go:109-151 Validate")
p("C114", "Statistics are published every stats_interval and are up to date",
  "While a component runs, everything it has counted is in a report at most one stats_interval (and the time reports take) later, also if earlier reports were lost; a report's value is the counter's at the time of the report and never goes down; Stop does not wait for the interval, and when a component has stopped everything it counted has been reported.",
  "all interleavings in time of counting, the statistics loop and Stop, all intervals, all failures of publishing",
  "when the counter changes relative to the reading, the timestamp and the publication is up to the scheduler and the clock; a test sees a few reports",
  "README.md:173-175 stats_interval",
  "listener/listener.go:417-429 startStatistician",
  "filter/filter.go:160-189 startStatistician",
  "downsampler/downsampler.go:185-214 startStatistician",
  "writer/writer.go:247-286 startStatistician",
  "stats/prometheus.go:62-64 timeToMillis")
p("C115", "Concurrent scrapers get right answers, and a slow one does not stop the monitor",
  "With any number of scrapers at once, each reading at its own pace, every complete answer of the monitor is right for one moment between the request and the answer: it has the latest values of all reports dealt with by then, in order of arrival, and of the delivered reports only lost ones and those waiting (at most the subscription's limit and one) are missing; every request is answered; and a scraper which stops reading delays neither other scrapers nor updates.",
  "all interleavings of scrapers (any number, any reading pace, disconnecting anywhere), message deliveries and the NATS callback, all sizes of buffers",
  "who holds the mutex while a client does not read depends on page and buffer sizes and on the scheduler; tests scrape once, with a client that reads",
  "monitor/monitor.go:105-138 serveHTTP",
  "monitor/monitor.go:140-152 receiveMetrics",
  "prometheus/metricset.go:53-74 ToBytes",
  "README.md:518-527")
p("C116", "Every key of a configuration file takes effect, or the file is refused",
  "Whatever is written in a configuration file counts: each key in it sets the option of that name to the value given, wherever in the file it stands, options which are not in it keep their values from the common file or their defaults, and a file with an unknown option or with a value of the wrong type is refused.",
  "all tables of keys and values, in all orders, for both files",
  "the options are bound to fields by tags and by the TOML library's matching of names, in the random order of Go's maps; tests parse correct files only",
  "config/config.go:36-77 Config, Rule",
  "config/config.go:230-296 NewConfigFromFile, readConfig",
  "config/duration.go:33-37 UnmarshalText",
  "example-http-listener.conf",
  "example-udp-listener.conf",
  "tools/*.toml",
  "release-notes.md:115-131")
p("C117", "An outage of the NATS server loses only what does not fit the client's buffer, and that is counted",
  "When the NATS server goes away for however long and comes back, every component (and influx-spout-tap) is connected again without being restarted; what was published meanwhile is delivered then, once and in order, as long as it fits the client's 8 MiB; every message which is not delivered is counted in failed_nats_publish.",
  "all histories of publishing, outages, broken connections, attempts to reconnect and their order, message sizes",
  "depends on which client reconnects first and on what is on the connections when they break; tests run with one server which stays up",
  "listener/listener.go:142, 390-415",
  "filter/filter.go:116",
  "filter/worker.go:153-161",
  "downsampler/downsampler.go:74, 165-180",
  "writer/writer.go:78",
  "monitor/monitor.go:103",
  "cmd/influx-spout-tap/influx-spout-tap.go:41-56",
  "README.md:570-600")
p("C118", "The HTTP endpoints are exactly the documented paths, and a successful write was given its body",
  "For every request: the listener answers it with its /write handler, the monitor with /metrics and the probes with /healthz and /readyz exactly when its path is that path; other paths are redirected to their usual form or answered 404; no redirect loops; and a client which is told that its write succeeded had its body read.",
  "all paths (bytes), methods, bodies and numbers of redirects followed",
  "the paths are arbitrary bytes; tests use the endpoint itself",
  "listener/listener.go:214-224, 258-276",
  "monitor/monitor.go:108-125",
  "probes/probes.go:60-70",
  "README.md:193-202")
p("C119", "InfluxDB's user name and password go to the configured server, and to no other",
  "The writer sends the configured user name and password with every request of a write to the configured server (so that a server which wants them takes the data), never to another host or port, and never unencrypted if https is configured.",
  "all configurations, chunks, servers (their answers may depend on everything before), redirects and meanings of Location",
  "depends on what servers which are not the project's answer; the tests' server never redirects",
  "writer/influxclient.go:27-47, 56-83",
  "config/config.go:55-60",
  "README.md:510-520")
p("C120", "Components can be added and removed without disturbing the flow of data to the others",
  "When a component (filter, writer, downsampler, monitor, influx-spout-tap) is added to a running system or taken out of it, at any time, every other component goes on receiving exactly the messages it would have received otherwise.",
  "all histories of starts, stops and publications, subjects with wildcards, and choices of the broker among the members of queue groups",
  "depends on the whole deployment, on when components come and go and on the broker's choices; tests run one component",
  "README.md:23",
  "filter/filter.go:86-97",
  "writer/writer.go:91-109",
  "downsampler/downsampler.go:80-96",
  "monitor/monitor.go:51",
  "cmd/influx-spout-tap/influx-spout-tap.go:48")
p("C121", "A component's statistics reach the monitor whatever its name and subjects are",
  "Whatever name, subjects, database name and host name a component has, the statistics it publishes are read by the monitor as what they stand for (these counters with these labels), and are served so that Prometheus reads the values that were configured; and no configuration of one component affects the statistics of another.",
  "all reports (counters, times, labels with any byte strings as values), all sort functions that sort, all histories of the monitor",
  "label values are arbitrary byte strings from the configuration; tests use plain words",
  "prometheus/metric.go:37-46, 76-103",
  "stats/prometheus.go:26-62",
  "config/config.go:39, 112-210, 244-246",
  "monitor/monitor.go:142-152",
  "filter/filter.go:167-187",
  "writer/writer.go:250-275")

out = os.path.join(os.path.dirname(os.path.abspath(__file__)), "..", "properties.jsonl")
with open(out, "w") as f:
    for x in P: f.write(json.dumps(x, ensure_ascii=False) + "\n")
print(len(P), "properties")
