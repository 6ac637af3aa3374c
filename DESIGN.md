# Formal model of gocraft/health in Rocq (Coq 8.16.1)

## Layout

`rocq/theories/`

| kind | files | contents |
|---|---|---|
| base | `Base.v` | int64 wrap-around, IEEE-754 binary64 (stdlib `SpecFloat`), crash results, loops over maps |
| model | `M*.v` | executable Gallina definitions only; each cites the Go lines it models |
| specification | `S*.v` | small declarative specifications, written without the model's helpers |
| proofs | `P*.v` | lemmas; `P*Ex.v` are concrete executions used by the refutations and by the examples |
| properties | `T*.v` | only the property theorems (`Cnn_...`), each closed by `exact`, with an `Example` that shows a non-trivial case beside it and `Print Assumptions` below it |

Models and what they model:

| file | models |
|---|---|
| `MHealth.v` | `health.go`, `error.go`: streams, jobs, key/value maps and errors on a heap, calls to sinks |
| `MAgg.v` | `aggregator.go`, `interval_aggregation.go`, on values |
| `MMerge.v` | `interval_aggregation_merge.go`, `interval_aggregation_clone.go`, on values |
| `MHeap.v`, `MHeapProg.v` | the same four files on a heap of pointers and maps; programs over aggregations |
| `MPolling.v` | `json_polling_sink.go` and the loop of `aggregator.go`: goroutine, channels, callers |
| `MStatsd.v`, `MStatsdLoop.v`, `MStatsdTicker.v` | `statsd_sink.go`: bytes and buffers; goroutine, channels, callers; the ticker and the goroutine that asks for flushes (the socket, which nothing closes, is left out) |
| `MWriter.v` | `writer_sink.go` |
| `MLog.v` | the emitting methods and `Run` of `health.go` with the sinks of `writer_sink.go` and `json_writer_sink.go` running in the caller's goroutine, panics included; other sinks are taken to return (what they do is in their own files); failing Writes are not seen by anyone, as in the code |
| `MLibrato.v` | `sinks/librato/sink.go`: names, measures, batches, loop |
| `MBugsnag.v` | `sinks/bugsnag/{sink,api}.go`: what is queued, the loop, the payload |
| `MStack.v` | `stack/{stack,frame}.go` |
| `MRuntime.v` | `runtime_metrics/runtime_metrics.go` |
| `MHealthd.v` | `healthd/healthd.go`: the aggregation state and its four operations |
| `MHealthdLoop.v` | `healthd/healthd.go`, `healthd/debouncer.go`: loop, debouncer, polls, handlers, Stop |
| `MRequest.v` | `healthd/api.go` middleware, `healthd/poll.go` |
| `MApi.v` | `healthd/api.go` handlers: jobs, aggregations, overall, hosts |
| `MWire.v` | the JSON documents of `json_polling_sink_http.go`, `healthd/api.go`, `json_writer_sink.go`, and their readers `healthd/poll.go`, `cmd/healthtop` |
| `MTop.v` | `cmd/healthtop`, `cmd/healthd` |
| `MSend.v` | the bodies of the requests of `sinks/librato/sink.go` and `sinks/bugsnag/api.go` |
| `MHealthdHeap.v` | the same functions of `healthd/healthd.go` as `MHealthd.v`, with pointers to aggregations in the heap of `MHeap.v`; the decoded responses, `memorySafeIntervals` |
| `MTopLoop.v` | the loops of `cmd/healthtop/jobs.go` and `hosts.go` with the goroutines they start; `http.Get` and the decoding of a page are one step |
| `MTopTable.v` | `printJobs`, `printJob`, `printHosts`, `printHost` and the cell functions of `cmd/healthtop`: the text written to the table. goterm's Bold and Color are parameters; its table (a `text/tabwriter`), the clearing of the screen and the terminal size are not modelled |
| `MIdent.v` | `identifier.go`, `runtime_metrics/fds_linux.go`, `fds_darwin.go`; what open(2) does with a full table of descriptors is stated there |
| `MHealthdRace.v` | the memory that the goroutines of `healthd` share, access by access, in whole objects; of the aggregations only their durations; channels without bound |
| `MRace.v` | the shared memory that the methods of `health.go` and the goroutines of Bugsnag and polling sinks access, step by step (errors with their `Emitted` flags and stack frames included); of a map only whether it is empty; polling sinks' queues without bound; which errors have the same text and stack is a parameter |
| `MErrors.v` | errors as objects (`error.go`, `Emitted` of `health.go`, `Frames` of `stack/stack.go`) and `ErrorCounter` of `interval_aggregation.go` comparing them with DeepEqual |
| `MProcess.v` | the loops over `Sinks` in the emitting methods of `health.go` run by several goroutines; the sinks are those of `MPolling.v`, `MStatsdLoop.v`, `MLibrato.v` and `MBugsnag.v` and sinks that never block; sinks are attached before the calls; whether a Bugsnag sink finds an error not yet emitted is given with the calls (any pattern), not computed from the error objects |
| `MFmt.v`, `MNum.v`, `MUtf8.v`, `MJson.v` | not code of /repo: the parts of `strconv`, `fmt`, `time`, `unicode/utf8` and `encoding/json` it relies on |

## Trusted base

1. Coq's kernel (the proofs use `vm_compute`, so also the virtual machine's
   conversion test; `native_compute` is not used).  `coqchk` re-checks the files.
2. The axioms `Print Assumptions` lists.  For every theorem in a `T*.v` file
   not named below it prints "Closed under the global context".  The others
   use the axioms of the standard library's real numbers, through Flocq:
   * `ClassicalDedekindReals.sig_forall_dec`, `ClassicalDedekindReals.sig_not_dec`, `Classical_Prop.classic`, `FunctionalExtensionality.functional_extensionality_dep`:
     `C136_sums_of_squares` (TClock2.v), `C137_one_visit_partial` (TClock2.v),
     `C137_visited_once_partial` (TClock2.v), `C12_sum_of_squares` (TFloat.v),
     `C12_sum_of_squares_exact` (TFloat.v), `C27_merged_sum_of_squares_partial` (TFloat.v),
     `C40_timing_error_partial` (TFloat.v), `C40_timing_is_number` (TFloat.v), `C40_timing_monotone`
     (TFloat.v), `C92_gauge_text_partial` (TFloat.v), `C59_sorted_by_average` (TFloat.v),
     `C60_jobs_described` (TFloat.v), `C60_average_finite` (TFloat.v), `C60_average_partial`
     (TFloat.v), `C60_stddev_small_partial` (TFloat.v), `C60_stddev_partial` (TFloat.v),
     `C84_modest_batches_sent_partial` (TFloat.v), `C116_taken_is_shown` (TLive4.v), `C116_no_crash`
     (TLive4.v), `C127_on_screen` (TLive7.v), `C131_call_on_screen` (TLive9.v),
     `C121_screen_shows_emitted` (TScreen.v), `C95_document` (TSend.v), `C95_ordinary_sizes`
     (TSend.v), `C99_timers` (TServer.v), `C100_gauge_last_value_partial` (TServer.v),
     `C100_sum_since_partial` (TServer.v), `C100_sum_partial` (TServer.v),
     `C97_published_is_emitted` (TSystem.v), `C97_finished_interval_exact` (TSystem.v),
     `C97_heard_is_published` (TSystem.v), `C97_no_crash` (TSystem.v), `C97_answers_can_be_taken`
     (TSystem.v), `C97_counts_never_go_down` (TSystem.v), `C98_jobs_page` (TSystem.v),
     `C34_emissions_arrive_partial` (TWire2.v)
   * `ClassicalDedekindReals.sig_forall_dec`, `FunctionalExtensionality.functional_extensionality_dep`:
     `C40_timing_error_refuted` (TFloat.v)
   No axiom is declared in this development: no `Axiom`, `Parameter`,
   section-less `Variable`, `Admitted`, module type or functor.
   The libraries used are the standard library, std++, Flocq (real numbers,
   binary64) and, in the heap chapter's proofs only, Iris (`bi`, `proofmode`).
   Loading the standard library's `Reals` and `ssreflect` also brings opaque
   module-sealed constants (`Rdefinitions.R*`, `ssrunder.Under_rel.*`) into
   the environment; no theorem depends on them beyond the list above.
3. That the definitions in `M*.v` mean what the cited Go lines mean.  The Go
   code was read, not run: there is no toolchain in the sandbox.
4. That the statements in `S*.v` and `T*.v` say what the property says.

## Modelling conventions and simplifications

* Go `string`/`[]byte` = Coq `string`: a list of bytes, no encoding assumed.
* Go `int64`/`int` = `Z`, every operation that can overflow wrapped by `w64`.
  `int` is 64 bits wide.
* Go `float64` = `spec_float` with `SFadd/SFmul/SFdiv/SFsqrt 53 1024`: exactly
  binary64, round to nearest even, one NaN.  A Go compiler may fuse multiply
  and add on some targets; the model is the unfused amd64 code.
* Go `map[string]T` = std++ `gmap string T`.  A `range` loop over a map is a
  fold over an explicit enumeration; theorems quantify over all enumerations,
  because Go randomises the order.
* Pointers: where aliasing matters (key/value maps, errors, aggregations) the
  model has an explicit heap.  Elsewhere values are used; for aggregations
  `THeap.v` proves that the value model is what the heap model computes.
* Run-time panics (nil dereference, index out of range, division by zero,
  slice bounds) are the result `Crash`.
* `time.Time` = nanoseconds since Go's zero time; in healthd together with the
  identity of the location, because `==` on map keys compares it.
* Goroutines and channels = labelled transition systems with program counters,
  queues and rendez-vous.  Theorems quantify over all executions.  Except in
  C109-C116, C122, C125-C129, C131 and C132 no fairness is assumed: "can be answered" means that some
  continuation answers, and the bounded variants say within how many steps of
  which goroutine.  They are about executions without end; the fairness
  they assume of the Go scheduler and of `select` is defined in `SFair.v`,
  `SLive.v`, `SLive2.v`, `SLive3.v` and `SLive5.v` to `SLive11.v` (weak: what is possible from some moment on happens;
  strong: what is possible again and again happens).
  The memory model is sequentially consistent; data races are noted below but
  their torn values are not modelled.
* The shortest decimal text of a float64 (`strconv` with precision -1) is an
  argument `ff`/`o_short` of the models; theorems assume only what the `strconv`
  documentation promises (`float_codec` in `SWire.v`, `short_codec` in
  `SStatsd3.v`: it is a number text and reads back as the same float).
  `MNum.v` has implementations (`go_float`, `go_short`), proved to keep the
  promise (`go_float_codec` in `TWire.v`, C92_short_text).
* Sinks passed to a stream are assumed to return and not to edit their arguments.
* `SSystem.v` puts the parts together: executions of several processes and a
  healthd (C97, C98, C121), through the models of the aggregator, the JSON documents,
  poll and healthd's aggregation.
* `SServer.v` reads the datagrams as a StatsD server does (C99-C101); it is a
  specification, not code of /repo.
* A property the model violates is kept: `Cnn_..._refuted` gives the concrete
  witness and `Cnn_..._partial` what does hold.

Not modelled:

* the network: HTTP servers, routing by `gocraft/web`, clients, UDP delivery,
  timeouts.  A handler is a function from a request to a status code and body; a
  fetch returns a body or an error; a datagram is what was handed to the socket;
* `fmt.Println` of the Librato body, process exit codes;
* the current time as text in `WriterSink` lines (an argument); the host name
  and pid of `identifier.go` are arguments of `MIdent.v`;
* goterm: the padding of healthtop's tables, the clearing of the screen, the codes for colours;
* `healthd/mock_time.go` and `*_test.go` files (test support);
* encoding/json's depth limit, and decoding of documents with duplicate or
  unknown fields beyond what the models state in their comments.

## Findings

What the code does contrary to a property is in the `_refuted` theorems and in
the notes of `MANIFEST.json`.  In short:

* `aggregator`: retain < interval makes the first command panic (C17); a clock
  stepping back loses or duplicates intervals (C18).
* key/value maps are shared with sinks when only one level has any (C04).
* `Run` returns the unwrapped error; reporting it again notifies twice (C08).
* merging a job no host completed sets its minimum to 0 (C23); merged sums of
  squares depend on the order of the hosts (C27); the standard deviation can
  be NaN, which makes /healthd/jobs answer 500 and healthtop show an empty
  list with "[success]" (C60, C93).
* the JSON body is used as a format: '%' in a name corrupts it (C32, C94), and a
  host whose address ends in one hides all hosts from healthtop (C94); one
  NaN gauge hides all metrics (C33); invalid UTF-8 merges names (C34).
* `statsd`: overlapping Drain and Stop hang (C42, C71), Stop does not flush
  (C43), the empty job name collides (C72), other names collide (C101), empty
  names are sent (C39), a negative gauge is sent as a decrement (C100);
  callers that keep emitting keep Drain from returning (C111).
* `librato`: names collide (C83), an infinite sum of squares drops the batch
  (C84), Stop loses what is queued and emitting blocks afterwards (C85, C86);
  the response body is never closed; FlushPeriod is read by the goroutine
  while the user may still set it.
* `bugsnag`: AppVersion is never sent, no defaults for ReleaseStage and
  Hostname (C76); shutdown drops the queue (C75).
* `healthd`: an interval in two zones is published twice (C53, C57); a purge
  loses data that hosts still report (C54, C55); zero or negative interval
  durations and null entries crash it (C56); 66 hosts can deadlock it (C64);
  a request during Stop hangs (C65); an interval above two hours gives
  maxIntervals 0; a response with an old serial but new data is ignored;
  of an interval a host's clock visited twice only one visit is kept (C137);
  `intervalDuration` is read without synchronisation (C123); the debouncer and
  poll goroutines outlive Stop (C125).
* a stopped sink with a full queue blocks callers, and the sinks after it hear
  nothing (C106).
* `healthtop` and `healthd` default to different ports (C90).
* a restarted program with the pid it had is taken for the old one (C117);
  num_fds_used is one too many (C118).
* overlapping reports of one error are all notified (C119); `KeyValue` after
  `EventErr` races with the Bugsnag sink's goroutine, and DeepEqual in a polling
  sink's goroutine races with the setting of `Emitted` and the resolving of
  stack frames (C120), so that equal errors may or may not share a slot (C14).

## Properties

How each is proved is in `MANIFEST.json` (notes) and in the comment above each theorem.

| id | property | status | theorems in |
|---|---|---|---|
| C01 | Emission fan-out | proved | `THealth.v` |
| C02 | Key/value precedence | proved | `THealth.v` |
| C03 | Emitting never edits the caller's maps | proved | `THealth.v` |
| C04 | A sink may keep the key/values it was given | partial | `THealth.v` |
| C05 | Error wrapping | proved | `THealth.v` |
| C06 | One Bugsnag notification per root error | proved | `THealth.v` |
| C07 | Run completes a job exactly once with the right status | partial | `THealth.v` |
| C08 | A panic reported by Run is notified once | partial | `THealth.v` |
| C09 | Event counters are exact | proved | `TAgg.v` |
| C10 | Per-job data is a partition of the interval data | proved | `TAgg.v` |
| C11 | Timer summaries are exact | proved | `TAgg.v` |
| C12 | Sum of squares is accurate | proved | `TFloat.v` |
| C13 | Gauges report the last value | proved | `TAgg.v` |
| C14 | Error counters and samples | partial | `TAgg.v`, `TErrors.v` |
| C15 | Completion counters | proved | `TAgg.v` |
| C16 | Bounded retention window | proved | `TAgg.v` |
| C17 | Any retention setting is safe | partial | `TAgg.v` |
| C18 | One entry per interval even if the clock steps back | partial | `TAgg.v`, `TClock.v` |
| C19 | Serial number is a change stamp | proved | `TAgg.v` |
| C20 | GetMetrics returns a stable snapshot | proved | `THeap.v` |
| C21 | Clone is a deep, equal, disjoint copy | proved | `THeap.v` |
| C22 | Merge adds counters | proved | `TMerge.v` |
| C23 | Merged minimum and maximum are right | partial | `TMerge.v` |
| C24 | Merge leaves its argument alone | proved | `THeap.v` |
| C25 | Merging per-host aggregates equals aggregating everything in one place | proved | `TMerge.v` |
| C26 | Merge order does not matter | proved | `TMerge.v` |
| C27 | Merged sum of squares does not depend on merge order | partial | `TFloat.v`, `TMerge.v` |
| C28 | The polling sink processes commands exactly once in order | proved | `TPolling.v` |
| C29 | GetMetrics sees a prefix | proved | `TPolling.v` |
| C30 | Read your writes | partial | `TPolling.v` |
| C31 | Shutdown stops the sink for good | proved | `TPolling.v` |
| C32 | /health serves the JSON it built | partial | `TWire.v` |
| C33 | Any gauge value keeps /health working | partial | `TWire.v` |
| C34 | Wire format round-trip | partial | `TWire.v`, `TWire2.v` |
| C35 | StatsD datagrams fit | proved | `TStatsd.v` |
| C36 | StatsD metrics are whole, in order, never lost or duplicated | proved | `TStatsd.v` |
| C37 | StatsD lines are what the command says | proved | `TStatsd.v` |
| C38 | Default sanitizer makes names safe | proved | `TStatsd.v` |
| C39 | StatsD metric names are never empty | partial | `TStatsd.v` |
| C40 | Timing text is accurate and monotone | partial | `TFloat.v` |
| C41 | Drain delivers everything emitted before it | proved | `TStatsd.v` |
| C42 | Concurrent Drain and Stop calls return | partial | `TStatsd.v` |
| C43 | Stop does not lose metrics | partial | `TStatsd.v` |
| C44 | WriterSink writes one deterministic line per emission | proved | `TWriter.v` |
| C45 | One line per emission | partial | `TWriter.v` |
| C46 | Human-readable times | proved | `TWriter.v` |
| C47 | JsonWriterSink output decodes to the emission | proved | `TWire.v` |
| C48 | Librato batch contents | proved | `TLibrato.v` |
| C49 | Librato flush isolates periods | proved | `TLibrato.v` |
| C50 | Librato names are valid | proved | `TLibrato.v` |
| C51 | Bugsnag payload is faithful | proved | `TStack.v` |
| C52 | healthd publishes the merge of the latest host data | proved | `THealthd.v` |
| C53 | healthd's published intervals are sorted, unique and bounded | partial | `THealthd.v` |
| C54 | Re-polling unchanged hosts changes nothing | partial | `THealthd.v` |
| C55 | healthd never loses data it already published | partial | `THealthd.v` |
| C56 | A malformed host response cannot crash healthd | partial | `THealthd.v` |
| C57 | Equal instants are one interval | partial | `THealthd.v` |
| C58 | Host statuses are current | proved | `THealthd.v` |
| C59 | Jobs API sorts and limits correctly | proved | `TApi.v`, `TFloat.v` |
| C60 | Average and standard deviation are those of the data | partial | `TApi.v`, `TFloat.v` |
| C61 | Overall is the merge of all intervals | proved | `TApi.v` |
| C62 | Debouncer fires at most once per threshold | proved | `THealthdLoop.v` |
| C63 | Every request is served within threshold plus one loop | proved | `THealthdLoop.v` |
| C64 | healthd's aggregator and debouncer never deadlock | partial | `THealthdLoop.v`, `TLive2.v` |
| C65 | Requests racing with Stop return | partial | `THealthdLoop.v`, `TLive2.v` |
| C66 | HTTP status to completion status | proved | `TApi.v` |
| C67 | Function names split losslessly | proved | `TStack.v` |
| C68 | Stack traces are bounded and start at the reporter | proved | `TStack.v` |
| C69 | Runtime metrics report exactly what is enabled | proved | `TRuntime.v` |
| C70 | healthtop name filter and status line | proved | `TTop.v` |
| C71 | Overlapping Drain calls deliver | partial | `TStatsd.v` |
| C72 | Each event counts once per metric name | partial | `TStatsd.v` |
| C73 | Emitting returns | partial | `TStatsd.v` |
| C74 | Reporting a nil error is harmless | partial | `THealth.v` |
| C75 | Accepted Bugsnag notifications are sent | partial | `TStack.v` |
| C76 | Bugsnag configuration is honoured | partial | `TSend.v`, `TStack.v` |
| C77 | System packages are those inside GOROOT | partial | `TStack.v` |
| C78 | healthd reports every poll | proved | `TApi.v` |
| C79 | Hosts API lists every host in order | proved | `TApi.v` |
| C80 | The nil of a round comes after every host's response | proved | `THealthdLoop.v` |
| C81 | The aggregation loop is serial and answers are current | proved | `THealthdLoop.v` |
| C82 | Stop ends the aggregation loop | partial | `THealthdLoop.v`, `TLive2.v` |
| C83 | Librato metrics of different events have different names | partial | `TLibrato.v` |
| C84 | One measurement never keeps a batch from being sent | partial | `TFloat.v`, `TLibrato.v` |
| C85 | Librato Stop delivers what was emitted | partial | `TLibrato.v` |
| C86 | Emitting to Librato returns | partial | `TLibrato.v` |
| C87 | Stop ends all runtime reporting | partial | `TRuntime.v` |
| C88 | Any options are safe to start | partial | `TRuntime.v` |
| C89 | healthtop cells show the data | proved | `TTop.v` |
| C90 | healthtop finds healthd by default | partial | `TTop.v` |
| C91 | healthd monitors the configured hosts and itself | proved | `TTop.v` |
| C92 | Gauge text is accurate | partial | `TFloat.v` |
| C93 | healthtop shows the jobs healthd computed | partial | `TWire.v` |
| C94 | healthtop shows the host statuses healthd has | partial | `TWire.v` |
| C95 | A Librato request says what was accumulated | proved | `TSend.v` |
| C96 | A Bugsnag report is one JSON document with the error and its stack | proved | `TSend.v` |
| C97 | What healthd publishes is what the processes emitted | proved | `TSystem.v` |
| C98 | What the jobs page shows is what the processes emitted | proved | `TSystem.v` |
| C99 | A StatsD server counts and times what was emitted | proved | `TServer.v` |
| C100 | A StatsD gauge has the last value | partial | `TServer.v` |
| C101 | StatsD metrics of different events have different names | partial | `TServer.v` |
| C102 | healthd's loop and its handlers share no memory | proved | `THealthdHeap.v` |
| C103 | healthtop shows healthd's latest answer | partial | `TTopLoop.v` |
| C104 | healthtop's tables have a row for every job and host | partial | `TTopLoop.v` |
| C105 | Every sink hears every call of every goroutine once | proved | `TProcess.v` |
| C106 | A stopped sink does not hold up callers or other sinks | partial | `TProcess.v` |
| C107 | Totals of concurrent callers agree at all sinks | proved | `TProcess.v` |
| C108 | Any JSON answer is read by Go's rules or reported as an error | proved | `TDecode.v` |
| C109 | The polling sink serves its callers | proved | `TLive.v` |
| C110 | The StatsD sink sends what it accepted | proved | `TLive.v` |
| C111 | Drain returns | partial | `TLive.v` |
| C112 | The Librato sink sends what it accepted | proved | `TLive.v` |
| C113 | The Bugsnag sink notifies what it accepted | proved | `TLive.v` |
| C114 | healthd goes on | proved | `TLive2.v` |
| C115 | Every call returns and arrives | proved | `TLive3.v` |
| C116 | What was emitted is shown sooner or later | proved | `TLive4.v` |
| C117 | Identifiers tell processes apart | partial | `TIdent.v` |
| C118 | num_fds_used is the number of open descriptors | partial | `TIdent.v` |
| C119 | An error reported by several goroutines at once is notified once | partial | `TRace.v` |
| C120 | Callers and sinks do not race | partial | `TRace.v` |
| C121 | healthtop's table shows what the processes emitted | proved | `TScreen.v` |
| C122 | Runtime metrics go on | proved | `TLive5.v` |
| C123 | healthd's goroutines do not race | partial | `THealthdRace.v` |
| C124 | The interval duration on a page is that of its intervals | proved | `THealthdRace.v` |
| C125 | Stop ends healthd's goroutines | partial | `TLive6.v` |
| C126 | healthtop goes on | proved | `TLive7.v` |
| C127 | What was emitted is on the screen sooner or later | proved | `TLive7.v` |
| C128 | Every host is asked again and again | proved | `TLive8.v` |
| C129 | How every host answers is on healthtop's screen | proved | `TLive8.v` |
| C130 | What healthd holds is bounded | partial | `TBound.v` |
| C131 | A goroutine's call is on the screen sooner or later | proved | `TLive9.v` |
| C132 | Stopping a sink ends its goroutines | partial | `TLive10.v` |
| C133 | Every emission appears once in every log | proved | `TLog.v` |
| C134 | Reporting never panics in the caller | partial | `TLog.v` |
| C135 | A sink's trouble with an emission stays its own | partial | `TLog.v` |
| C136 | Whatever the clock does, the sink shows its latest visits | proved | `TClock.v`, `TClock2.v` |
| C137 | A process whose clock stepped back loses nothing in healthd | partial | `TClock2.v` |
