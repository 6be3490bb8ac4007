# Formal model of influx-spout in Rocq (Coq 8.16.1)

Source: `/repo` (Go). Nothing is built or run; every definition of the model cites the file and
lines it models. Libraries: Coq's standard library, and Flocq (IEEE 754 binary64) for the property
about float averages only. No axioms, parameters, functors or module types are declared.

## Layout (`rocq/theories`)

| area | model | specification | proofs | property theorems |
|------|-------|---------------|--------|-------------------|
| bytes, integers | `Base` | | | |
| line protocol text, integers, timestamps | `Text` `Convert` `Timestamps` | `TextSpec` `NumSpec` `LinesSpec` `GrammarSpec` | `TextProofs` `NumProofs` `GrammarProofs` | `P_Text` `P_Grammar` |
| splitter, batch | `Splitter` `Batch` | `BatchSpec` | `SplitterProofs` `BatchProofs` | `P_Batch` |
| listener | `Listener` `HttpLock` | `ListenerSpec` | `ListenerProofs` `HttpProofs` `HttpAck` `HttpLock` | `P_Listener` `P_Http` `P_Lock` |
| filter | `Rules` `FilterWorker` | `RulesSpec` `FilterSpec` | `RulesProofs` `RouteProofs` `FilterProofs` `FilterStop` `FilterSize` | `P_Filter` `P_Shutdown` `P_Extra` |
| downsampler | `Avg` `Assigner` `Floats` | `AvgSpec` `AssignerSpec` | `AvgProofs` `AvgNum` `AvgPrint` `AvgExact` `AssignerProofs` `DsProofs` `DsMain` `DsStop` `FloatProofs` | `P_Downsampler` `P_Shutdown` `P_Float` |
| writer | `Retry` `Writer` | `RetrySpec` `WriterSpec` | `RetryProofs` `RetryMain` `WriterProofs` `WriterMain` `WriterTop` | `P_Writer` |
| counters, metrics, monitor | `Stats` `Prom` | `StatsSpec` `PromSpec` | `StatsProofs` `PromParse` `PromProofs` `PromMonitor` `PromTop` `PromStats` `ItemStats` | `P_Monitor` `P_Items` |
| configuration, probes | `Config` `Probes` | `ConfigSpec` | `ConfigProofs` `ConfigLoad` `ConfigRules` `ProbesProofs` | `P_Config` |
| composition | `EndToEnd` | `EndToEnd` | `EndToEndProofs` `DsEnd` | `P_EndToEnd` `P_DsEnd` |
| deployments | `Nats` `Loop` | `Cluster` | `ClusterProofs` `Loop` | `P_Cluster` |
| InfluxDB request | `Url` | `Url` | `Url` | `P_Url` |
| start and stop | `StartStop` | `StartStop` | `StartStop` | `P_StartStop` |
| label values | LabelText.v | LabelText.v (report_frame_ok, one_piece, unescape) | LabelText.v, LabelLost.v | P_LabelText.v |
| outages behind a filter | `Outage`, `FilterWorker` | `FilterSpec` | `P_OutageFilter` | `P_OutageFilter` |
| damage to served metrics | `Prom` | `PromDamage` | `PromDamage` | `P_MonitorDamage` |
| what rules see of rewritten lines | Rules.v | RouteSeen.v | RouteSeen.v | P_RouteSeen.v |
| endpoints | Endpoints.v | Endpoints.v | Endpoints.v | P_Endpoints.v |
| credentials | Creds.v | Creds.v | Creds.v | P_Creds.v |
| HTTP routes | Mux.v | Mux.v | MuxProofs.v | P_Mux.v |
| NATS outages | Outage.v | Outage.v | OutageProofs.v | P_Outage.v |
| TOML keys | TomlKeys.v | TomlKeys.v | TomlKeysProofs.v | P_TomlKeys.v |
| scrapers and the mutex | MonitorLock.v | MonitorLock.v, PromSpec.v | MonitorLockProofs.v | P_MonitorLock.v |
| statistics loop | StatsLoop.v | StatsLoop.v | StatsLoopProofs.v | P_StatsLoop.v |
| ports | Ports.v | Ports.v | PortsProofs.v | P_Ports.v |
| write timeout | Timeout.v | Timeout.v, RetrySpec.v, WriterSpec.v | TimeoutProofs.v | P_Timeout.v |
| growing metrics | `Reports.v`, `Prom.v` | `MetricsGrow.v` (states, growing, page, some_of) | `MetricsGrow.v`, `CompGrow.v` | `P_MetricsGrow.v` |
| rule edits | `FilterWorker.v`, `Rules.v` | `RuleEdit.v` (fits_rule, moves, msg, part, exclusive) | `RuleEdit.v` | `P_RuleEdit.v` |
| durations with a decimal point | `Units.v`, `FracDur.v`, `Floats.v` | `FracDur.v` (point_text) | `FracDur.v` | `P_FracDur.v` |
| HTTP write API | `HttpApi.v`, `Url.v`, `Listener.v` | `HttpApi.v` (query_text), `P_HttpApi.v` (same_write) | `HttpApi.v` | `P_HttpApi.v` |
| parse.go statement by statement | `GoLang.v`, `GoProm.v` | `PromSpec.v` | `GoProm.v` | `P_MonitorGo.v` |
| old data | `FilterWorker.v`, `Assigner.v`, `Avg.v`, `Prom.v` | `Forget.v`, `PromSpec.v` | `Forget.v`, `ForgetMon.v` | `P_Forget.v` |
| grouping into messages | `FilterWorker.v`, `Writer.v`, `Assigner.v` | `Grouping.v` | `Grouping.v` | `P_Grouping.v` |
| order of arrival | `Avg.v`, `Floats.v` | `Order.v` | `Order.v`, `OrderFloat.v` | `P_Order.v` |
| downsampler window vs clock | `Assigner.v` | `Skew.v` | `Skew.v` | `P_Skew.v` |
| memory bounds | (Batch, Listener, Writer, WriterPool) | MemorySpec.v | Memory.v | P_Memory.v |
| Go-level data path | GoLang.v GoInflux.v GoFilter.v GoBatch.v GoDown.v GoPipe.v | (the functional models) | in the same files | P_Panics.v |
| statistics reports | Stats.v, FilterWorker.v, Reports.v | Reports.v (shows, quiet), StatsSpec.v | Reports.v | P_Reports.v |
| flush conditions | Writer.v, Listener.v | Counts.v | Counts.v | P_Counts.v |
| NATS subjects | Subjects.v, Copies.v, DsLoop.v | Subjects.v (words, Covers) | Subjects.v, DsLoop.v, Copies.v | P_Subjects.v |
| HTTP body scanner | Scanner.v | LinesSpec.v | ScannerProofs.v | P_Scanner.v |
| redirects | Redirect.v | Redirect.v | Redirect.v | P_Redirect.v |
| limits | Limits.v | (in the statements) | Limits.v | P_Limits.v |
| writer rules | (Config.v, Rules.v) | WriterRules.v | WriterRules.v | P_WriterRules.v |
| sizes and durations | Units.v | Units.v | Units.v | P_Units.v |
| latency | (Listener.v, FilterWorker.v, Writer.v), Latency.v | Latency.v | Latency.v | P_Latency.v |
| benchcheck | Bench.v | Bench.v | Bench.v | P_Bench.v |
| program | MainProg.v, Config.v, StartStop.v, Pending.v | MainProg.v, ConfigSpec.v | MainProg.v | P_Main.v |
| InfluxDB contents | Store.v, Writer.v, Retry.v | Store.v | Store.v | P_Store.v |
| kills and restarts | Crash.v, EndToEnd.v | Crash.v | Crash.v | P_Crash.v |
| pending limit | Pending.v, NatsSub.v, StartStop.v | Pending.v | Pending.v | P_Pending.v |
| filters in series | FilterWorker.v, Rules.v | Chain.v | Chain.v | P_Chain.v |
| filter and downsampler intake | NatsSub.v, Feeds.v | Feeds.v | Feeds.v | P_Feeds.v |
| writer pool | NatsSub.v, WriterPool.v | WriterPoolProofs.v (head) | WriterPoolProofs.v | P_Pool.v |
| time window | `FilterWorker` | `FilterSpec` | `Window` | `P_Window` |
| influx-spout-tap | `Tap` | | | `P_Extra` |

`P_*.v` files contain only theorem statements closed by `exact lemma`, `Print Assumptions`, and
`Example`s showing that concrete, non-trivial cases meet the hypotheses. Files not in this table
are listed in `_CoqProject` and start with a comment saying what they are.

## Modelling decisions

* A Go `[]byte` or `string` is `list ascii`. `int`/`int64` is `Z`; where the code can wrap the wrap
  is explicit (`wrap64`, `wrapu64`, `mod 2^64`), including Go's truncating division (`Z.quot`).
* Index loops over slices become structural recursion; loops whose progress depends on data take
  fuel, and running out of fuel is a separate outcome proved unreachable.
* Panics (slice index out of range, MustCompile, nil map) are explicit outcomes.
* Slice aliasing is modelled where it matters: `filter.parsedLine.SortTags` writes into the memory
  the parsed tags point to; a parsed Prometheus metric shares the memory of the received line and
  rendering writes into it; `Labels.With` appends to a slice that may be shared (with the allocator's
  capacity rounding as a parameter).
* `sort.Sort` is a parameter `gosort` with the specification "sorted permutation" (it is not
  stable, so nothing more is assumed), shown inhabited by insertion sort. Map iteration order is an
  arbitrary permutation. A regular expression is an arbitrary predicate on bytes; whether it compiles is an
  oracle. `fmt.Printf` (used by the tap with data as format) is a parameter constrained by its documentation.
* TOML syntax is not modelled: a file is the record of options it sets. How BurntSushi/toml 0.3.1
  decodes a second file into existing rules is written down from knowledge of that library and is a parameter with an
  explicit condition in the positive theorems.
* Publishing, HTTP responses, clock readings, reads and timers are oracles: universally quantified lists,
  functions or events.
* Time is `Z` nanoseconds. float64 is a record of operations; `Floats.v` instantiates it with
  Flocq's binary64 (round to nearest even); `strconv.ParseFloat`/`AppendFloat` remain parameters.
* Concurrency: goroutines are step machines and the scheduler is universally quantified. Granularity:
  single `sync/atomic` operations for counters (`Stats`), lock-protected sections for the HTTP listener, one
  counter increment / publish / channel operation for filter workers, one channel operation, timer expiry or HTTP answer for the
  writer with its retry goroutine, one probe update or request for the probes.
* NATS, the kernel's UDP, the HTTP server and client and InfluxDB are outside the repository. Where a property spans
  them (C56, C70) reliable delivery is an explicit hypothesis.

## Plan per property

| id | modelled | proof |
|----|----------|-------|
| C01 | Escape, Unescape as structural recursions | induction; iff with a "contains pair" predicate |
| C02 | token scan | induction over the scan with look-behind |
| C03 | ParseTags with fuel, TagSet.Bytes | induction on tags, using C01/C02 |
| C04 | QuotedString, EscapeQuotedString | refutation; exact characterisation (iff) |
| C05 | ToInt with explicit mod 2^64 | induction on digits |
| C06-C09 | timestamps.go, applyTimestampPrecision | scan lemmas, arithmetic |
| C10-C12 | Splitter Next/Chunk | strong induction on remaining length; C11 refuted |
| C13-C15 | Batch as a record (buf, cap, writes, created) | invariant over op lists; reader = list of read results |
| C16-C18, C22 | UDP loop as fold over read results | invariant; equality with a reference grouping |
| C19-C21, C68 | HTTP handlers/age sender as lock-level steps | invariant over schedules |
| C23-C25 | SubsetOf, LookupParsed, FNV-1 | induction; collision by computation; one-byte-apart by invertibility of the round function |
| C26-C27 | SortTags with buffer offsets | value-level refinement; C27 refuted/partial; the places of the parsed tags (RouteSeen.v) give exactly what rules see of a rewritten line |
| C28-C31, C67 | filter worker and pool | fold over lines; labelled transition system, invariants, termination measure |
| C32-C33, C57, C69 | Assigner and worker loop, any bucket | refinement of a log of accepted lines |
| C34-C38, C66 | avgBucket | induction on updates; error analysis in the reals for C66 |
| C39-C43, C58 | retryQueue, retry loop as timed machine | invariants over traces |
| C43-C46, C59, C60 | writer worker, influx client, channel pair | invariants over traces of the pair |
| C47 | atomic steps with CAS loop | linearisation, invariants over schedules |
| C48-C50, C61, C62 | prometheus codec, metric set, monitor, statistician | grammar of accepted lines (iff), map refinement |
| C51-C53, C63-C65 | Config, Validate, precedence, main's dispatch | case analysis, iff |
| C54 | probes | invariant over interleavings |
| C55 | roundUpToPageSize | arithmetic |
| C56, C70 | composition | from the components' theorems |
| C71 | filter worker | size lemma for escaping |
| C72 | influx-spout-tap | fold over lines |
| C73 | ParseTags against an inductive grammar of lines | both directions by induction on the line |
| C74 | AddLine's field loop against an inductive grammar of field sections | both directions by induction on the section |
| C75 | per-item statistics of filter and downsampler through to the monitor's answer | composition of C49, C50 and C51 |
| C76 | NATS broker with subscriptions and queue groups (`Nats`), any number of listener, filter and writer runs connected by it (`Cluster`) | multisets: what the inboxes of a queue group hold together is what was published (`ClusterProofs`), then C14/C33/C22 per run as in C56 |
| C77 | filter execution whose published messages come back as input (`Loop`); loading and validation of the configuration | refuted by induction on the number of rounds; positive part from C76 |
| C78 | the URL the writer builds, Go's `net/url` query parsing and Basic Auth as the server reads them (`Url`) | length argument over parsed query: every special byte shortens or changes the name |
| C79, C21 | the HTTP listener at the granularity of single Read calls with an explicit mutex and the age goroutine's two critical sections (`HttpLock`) | refinement to the lock-level model; invariant while the mutex is held; age bound with slack |
| C80 | the Start functions as programs of fallible calls acquiring resources, the Stop methods as releases (`StartStop`) | invariant: whatever needs a goroutine to release it is held together with that goroutine |
| C81 | `processBatch`'s window for every int64 duration (`Window`) | case analysis on int64 overflow of both bounds |
| C82 | Writer pool: NATS subscriptions (pending limit, drops), jobs channel, n workers = Writer.v transition functions; global interleavings | invariant over runs (permutation of messages, projection of each worker to a run of wrun), drop iff |
| C83 | same model; stored bodies in order of the answers | in-order theorem for one subject and worker from C82 and C44; two counterexample runs |
| C84 | same model with Stop | stuck states are closed under steps; reachable for every message by induction on the queue length |
| C85 | NATS subscription (pending limit) in front of the filter's worker pool and of each downsampler worker | invariant over runs; projection to the pool / worker models already proved about |
| C86 | two filters in series (model of C24-C31 used twice) | the first filter's outputs parse to the same point with sorted tags; routing lemma of the filter applied to them |
| C87 | conversion of nats_max_pending_size, SetPendingLimits, subscription accounting | case analysis of the 64-bit conversion; invariant over subscription histories; C80's start theorem |
| C88 | prefix histories of listener, filter pool, writer pairs; sub-multiset composition | any prefix of a history satisfies the pool invariant of C29/C56; multiset inclusion is preserved by each stage |
| C89 | attempts of writer worker and retry goroutine, an InfluxDB that may carry out unacknowledged attempts, last write wins | invariant that every ended attempt is of a batch handed in; content of a fold of writes under consistency; C56's settled accounting |
| C90 | main, getConfigFileName, runComponent with the Start functions | case analysis over the composed models of configuration, rules, workers, limits and start |
| C91 | findProblems over the delta texts of benchstat | induction over tables and rows; printing and reading of deltas |
| C92 | histories of Listener.v, FilterWorker.v, Writer.v with clocks | what is held is a suffix of what arrived whose first item is younger than the limit; composition as in C56 |
| C93 | age checks as labels of the HTTP model with never-early timer; statistician loop | any three successive checks span batch_max_age |
| C94 | leadingInt, ParseDuration and ByteSize.UnmarshalText with their overflow checks | texts as sums of parts; both directions by induction over the text |
| C95 | validateFilter, validateWriter, RuleSetFromConfig on the same rule list with and without subjects | acceptance rule by rule; matchers do not depend on subjects |
| C96 | http.Client.Do's redirect loop over an arbitrary server | induction over the loop with: still a POST with the data, or a data-dropping redirect was seen |
| C97 | int conversion of sizes, Next for any int, make(chan) | wrap-around arithmetic, case distinction |
| C98 | bufio.Scanner with scanLines as a state machine over Read calls: buffer growth, moves, empty reads, errors | invariant over all passes; result compared with the lines of the body; measure for termination; refinement to the request model of C19/C68 |
| C99 | NATS subject matching word by word (`Subjects`); the downsampler worker of C32-C37 fed with its own messages (`DsLoop`) | refuted by induction over periods and by a computed run; exact condition by words of subject ++ suffix |
| C100 | the broker of C76 with wildcard subjects and queue groups collected by name (`Copies`) | refuted; counting of matching subscriptions, iff |
| C101 | Exact condition of a flush as an equivalence at every step of every history: writer trace since the last flush (Counts.writer_limit), HTTP pieces since the sent counter last rose (Counts.http_held), UDP reference (ListenerSpec.sp_run). | Invariants relating the batch to the list of its timed writes; refutations by computation. |
| C102 | The counter calls of FilterWorker.run_worker (act_calls) and of the statistician's rounds (report_calls) as programs of the small-step counters of Stats.v, any interleaving, any map order; reports are the Gets between two points of the linearised history. | Balance invariant: in every prefix of every worker's program the increments of processed cover those of passed, rejected and invalid_time (history_balance); linearisation (C47) for the values shown; refutations by computation. |
| C103 | Statement-by-statement transcriptions in a small Go monad (GoLang.v) of the code on the data path, with index, slice, division and map checks and the memory behind the batch; everything proved equal to `Ret` of the functional models | loop invariants relating indices to splits of the input; simulation between backing memory and contents; count invariant for the integer averages |
| C104 | Capacity (Size + Remaining) of the batch through every operation; invariants of the UDP loop, of the HTTP lock sections (bytes added by requests that have not reached their check) and of the writer/retry pair, lifted to the pool. | proved for UDP and writer; refuted for HTTP, conditional bound proved |
| C105 | acceptance window relative to the clock, for arbitrary clock readings per turn (`Skew.v`): keeping up defined on clock readings only | invariant of AssignerProofs with the period of the last reading; stall and set-back runs by induction on turns |
| C106 | two arrival orders of the same lines, compared on the bytes of the emitted bucket (`Order.v`, `OrderFloat.v`) | a bucket's entry for a series is a function of that series' lines; sorting a permutation gives the same names; error bounds of C34/C66 applied to both orders; ramp up/down attains the bound |
| C107 | two runs of a filter worker, a writer worker with its retry goroutine, or an assigner on messages with the same lines (`Grouping.v`) | the acts of a filter worker are a function of the fates of its lines; C40's conservation law for the writer; calls of the assigner replayed line by line |

Properties that are false of the code are kept in the list at full strength: the `*_refuted`
theorem gives the witness (usually for a whole family of inputs), and the `*_partial` theorems say what does hold, whenever
possible as an exact characterisation. Every property of the list is expressible in the model.

## Modelled and not modelled

Modelled: all of `batch`, `batchsplitter`, `convert`, `influx`, `filter`, `downsampler`, `writer`, `listener`,
`monitor`, `prometheus`, `stats`, `probes`, `config`, the mode dispatch of `cmd/influx-spout` and
`cmd/influx-spout-tap`, as far as they decide what data go where, what is counted, and when.

Not modelled: log output and error texts; connecting to NATS, binding sockets, HTTP transport settings
(`http.Client` timeouts are "no response"); `pprof`; the NATS client beyond its subscriptions with pending limits (`NatsSub`, from knowledge of nats.go 1.10);
`time.ParseDuration` and `datasize` parsing of option texts; memory limits; data races other than those named
above (each shared variable of the code is either atomic, lock protected or owned by one goroutine, which was
checked by reading); `spouttest`, `cmd/slowinfluxd`, test files.

## Trusted base

* Coq's kernel (8.16.1, `vm_compute` included), and that the model reads the Go code correctly.
* `Print Assumptions` is run below every property theorem; `ASSUMPTIONS.md` (written by `tools/assumptions.py`)
  lists the result per theorem. All are "Closed under the global context" except the four theorems of C66 (`P_Float.v`), which
  rest on the standard library's `ClassicalDedekindReals.sig_forall_dec`, `ClassicalDedekindReals.sig_not_dec`,
  `FunctionalExtensionality.functional_extensionality_dep` and `Classical_Prop.classic`.
* Other names a whole-library check lists (`Coq.Reals.Rdefinitions.RbaseSymbolsImpl.*`, `Coq.ssr.ssrunder.*`) are
  module-sealed definitions of the standard library, loaded through Flocq; no theorem depends on them as axioms.

## Testing the theorems

`tools/mutate.py` builds the development with one edit of the model at a time and reports the theorems that fail;
`seeded/LOG.jsonl` has one line per edit. Edits that no theorem noticed led to stronger
theorems (field `tightened`) or are explained as changing nothing a property speaks about.

## Checking the model against the code

The code cannot be run here, so the model's agreement with it rests on the citations. As independent evidence the
project's own test vectors are run on the model (`Conf*.v`, 118 `Example`s closed by computation). They are tests of
the model, not proofs of any property, and no theorem depends on them.

| file | from | how made |
|---|---|---|
| ConfInflux.v | influx/, listener convert tests, filter timestamp tests | `tools/gen_conf.py` reads the Go tables |
| ConfAvg.v | downsampler/avgbucket_small_test.go | `tools/gen_conf_avg.py` |
| ConfFilter.v | filter/rules_small_test.go, tag sorting | `tools/gen_conf_filter.py` |
| ConfConfig.v | config/config_small_test.go (incl. every Validate problem) | `tools/gen_conf_config.py` |
| ConfProm.v | prometheus/*_small_test.go, stats/prometheus_small_test.go | by hand |
| ConfBatch.v | batch, batchsplitter, assigner small tests | by hand |
| ConfMedium.v | stats small tests; filter, listener, writer, retry worker and downsampler medium tests | by hand, with clock readings in place of waiting |
| C108 | two runs of a filter worker or an assigner with different pasts (`Forget.v`); monitor histories of any length (`ForgetMon.v`) | invariant of C32 makes the state a function of the recent lines; C50's right_answer and growth of the accepted entries |
| C109 | net/url query reading and the mux's single path, before the HTTP listener of C19 | induction over the parameter list; equal start states, so equal runs |
| C110 | two filter workers (C28's model) with edited rule lists on the same input | fates as a function of the rules; lookup in an appended/shifted list; data per rule independent of position when rules exclude each other |
| C111 | reports of a filter run (C102) delivered with losses to the monitor (C61), two GETs | C102_grow per metric identity, transported through the entries of the reports to the last entry of the metric |
| C112 | a timed layer over the worker/retry-goroutine transition system: every POST gets an answer (silent, or a response after d ns) and http.Client.Timeout decides how long the goroutine is in it | for all answers by induction over the chunks; for all timed runs the ends of retry attempts by an invariant over the trace; drop and no-timeout claims refuted by a run and by an invariant |
| C113 | the goroutines of a process as instruction lists (spawn, open, ready, return) and every interleaving of them; sockets held by other processes as a predicate | an invariant over all schedules relating the open sockets, the events so far and the instructions left; refutations by explicit schedules |
| C114 | one counter and the statistics goroutine as a timed transition system: clock reading, counter reading, publishing, the select with time.After and the stop channel | induction over all timed runs: a bound by which the next sufficiently new report is due decreases with every deadline; values and timestamps by an invariant relating the loop's locals to a prefix of the run |
| C115 | GETs as phases (asked, writing under the mutex, answered, closed) with a client that reads a number of bytes at a time, the NATS callback (parse, lock, update) and a bounded queue as one transition function | induction over all interleavings: linearisation to the atomic history of C27 at the mutex; explicit continuations for progress; an invariant for the stall |
| C116 | A TOML document is a list of keys and values (in the order of Go's map iteration); BurntSushi/toml's unifyStruct/unifySlice/unifyText are modelled key by key, with its matching of names, and refine the `pfile` of C53. Induction over the table, with the keys still to come setting other options; permutation of tables through the characterisation. |
| C117 | Transition function of publisher's client (connected or keeping messages), connection, server and subscription with outages and reconnects as labels; invariant: a client has messages on the wire or kept, never both; per-step accounting by permutation, order by subsequence, exactness for gentle steps; server pool and attempts as a recursion over the outcomes. Linked to Listener.v through the publish oracle. |
| C118 | Byte-level model of path.Clean (buffer in reverse), cleanPath and ServeMux.Handler; specification: the elements of a path walked over a stack. Proof: the buffer is the stack's encoding, one element at a time (strong induction on length); the usual form is a fixed point. Redirects as a bounded conversation. |
| C119 | The redirect loop of C96 with the Authorization header (makeHeadersCopier, shouldCopyHeaderOnRedirect, canonicalAddr at byte level). Invariant over adjacent exchanges; projection onto the loop of Redirect.v so that C96 still applies; concrete servers for the refutations. |
| C120 | Histories of starts, stops and publications over a broker with wildcard subjects and queue groups (the broker's choice is part of the event, constrained by `honest`). A lone component's messages equal a direct specification over the events that concern it; removing a component preserves honesty and everybody's messages (simulation between the two histories). |
| C121 | A report's label values are unconstrained bytes; `says`/`reads` (PromSpec) is what the monitor understands. Only if: every value a well-formed line says stands in that line between quotes, so it has neither quote nor newline. If: the report theorem of C61. The crash: the text up to the newline is a truncated line (C49), rendered first. Prometheus' reading of values is a small function from knowledge of the exposition format. |

All agreed with the model as it stood. Not covered: error texts, the aliasing tests of CopyBytes, benchmarks, tests which fill 1 MB
buffers, and the end-to-end test of the binary.
