{"id": "C01", "title": "Emission fan-out", "statement": "Each Job.Event/EventKv/Timing/TimingKv/Gauge/GaugeKv/EventErr/EventErrKv/Complete/CompleteKv call invokes the matching Emit method exactly once on every sink attached to the stream, in the order the sinks were attached, with the job's name, the caller's event name and the caller's payload unchanged, and makes no other sink call.", "quantifier": "all streams, all sink lists, all jobs, all event names and payloads, all histories of API calls", "why_tests_cant": "a test fixes one sink and one call; duplication, reordering or dropping for some sink position, call kind or history cannot be sampled away", "anchors": ["health.go: Stream.AddSink, Job.Event, Job.EventKv, Job.Timing, Job.TimingKv, Job.Gauge, Job.GaugeKv, Job.EventErr, Job.EventErrKv, Job.Complete, Job.CompleteKv"]}
{"id": "C02", "title": "Key/value precedence", "statement": "The key/value map handed to sinks binds exactly the keys of the stream, the job and the call, and a key set at several levels takes the call's value over the job's value over the stream's value.", "quantifier": "all contents of the three maps, including nil and empty maps, and all map iteration orders", "why_tests_cant": "eight emptiness combinations times arbitrary overlaps and randomised map iteration order", "anchors": ["health.go: Job.mergedKeyValues, Stream.KeyValue, Job.KeyValue"]}
{"id": "C03", "title": "Emitting never edits the caller's maps", "statement": "No emission changes the stream's key/values, the job's key/values or the map the caller passed in.", "quantifier": "all heaps of maps, including aliased ones, and all emissions", "why_tests_cant": "aliasing bugs only show for particular combinations of empty and shared maps", "anchors": ["health.go: Job.mergedKeyValues"]}
{"id": "C04", "title": "A sink may keep the key/values it was given", "statement": "The key/values a sink received for an emission still have the same contents later, whatever KeyValue calls the application makes after the emission (the Bugsnag sink queues them and reads them in another goroutine).", "quantifier": "all histories of KeyValue calls and emissions", "why_tests_cant": "needs every later history; the failing case needs exactly one non-empty map", "anchors": ["health.go: Job.mergedKeyValues, Job.KeyValue", "sinks/bugsnag/sink.go: Sink.EmitEventErr, errorProcessingLoop"]}
{"id": "C05", "title": "Error wrapping", "statement": "EventErr/EventErrKv return a muted error or an already wrapped error unchanged, wrap any other error exactly once keeping its message, mark an unmuted error as emitted when they return, and every sink of that call sees the flag as it was before the call.", "quantifier": "all error values, all sink lists, all histories of reports", "why_tests_cant": "the flag is shared mutable state behind a pointer; order of sinks and earlier reports matter", "anchors": ["error.go: wrapErr, Mute, UnmutedError, MutedError", "health.go: Job.EventErr, Job.EventErrKv"]}
{"id": "C06", "title": "One Bugsnag notification per root error", "statement": "If each level of a call stack reports the error returned by the level below through EventErr or EventErrKv, the Bugsnag sink enqueues exactly one notification, for the innermost report; a muted error enqueues none, at any depth.", "quantifier": "all call depths, all jobs/events at each level, all sink lists containing the Bugsnag sink, all earlier histories", "why_tests_cant": "unbounded depth and interleaving with other errors", "anchors": ["error.go: wrapErr", "health.go: Job.EventErr, Job.EventErrKv", "sinks/bugsnag/sink.go: Sink.EmitEventErr"]}
{"id": "C07", "title": "Run completes a job exactly once with the right status", "statement": "Stream.Run/Job.Run deliver to every sink exactly one completion: Success and a nil return when the function returns nil, Error and the function's own error when it returns an error, and on panic first one error event named panic carrying the panic text and the stack, then one completion with status Panic, returning an error with the panic text.", "quantifier": "all functions (abstracted by their outcome), all panic values, all sink lists", "why_tests_cant": "outcome space includes panic(nil) and Goexit, which tests do not try", "anchors": ["health.go: Stream.Run, Job.Run"]}
{"id": "C08", "title": "A panic reported by Run is notified once", "statement": "When a caller of Run re-reports the error Run returned for a panic, the Bugsnag sink still enqueues only one notification in total (README: log it on every level, only one error is sent).", "quantifier": "all panic values, sinks and job names", "why_tests_cant": "composition of Run with EventErr on the returned value", "anchors": ["health.go: Job.Run", "error.go: wrapErr", "sinks/bugsnag/sink.go: Sink.EmitEventErr"]}
{"id": "C09", "title": "Event counters are exact", "statement": "For every retained interval, the events count of an event is the number of EmitEvent commands for it processed while the clock was in that interval (modulo int64), and an event is listed only if there was at least one.", "quantifier": "all command histories with a non-decreasing clock, all job and event names", "why_tests_cant": "sums over unbounded histories, window slides included", "anchors": ["aggregator.go: aggregator.EmitEvent, getIntervalAggregation, createIntervalAggregation", "interval_aggregation.go"]}
{"id": "C10", "title": "Per-job data is a partition of the interval data", "statement": "In every retained interval, each job's event counts, timers, gauges and error counts are exactly those of the commands carrying that job name, and each top-level event count, error count and timer count equals the sum of the per-job ones.", "quantifier": "all command histories, all job and event names", "why_tests_cant": "partition over unboundedly many jobs", "anchors": ["aggregator.go: aggregator.EmitEvent, EmitEventErr, EmitTiming, EmitGauge", "interval_aggregation.go: getJobAggregation"]}
{"id": "C11", "title": "Timer summaries are exact", "statement": "A timer's count, sum, minimum and maximum are those of the timings processed in its interval, for arbitrary int64 values including negative ones (sum modulo 2^64).", "quantifier": "all non-empty sequences of int64 timings shorter than 2^63", "why_tests_cant": "boundary handling of the first sample and of negative values, unbounded sequences", "anchors": ["interval_aggregation.go: TimerAggregation.ingest, getTimers"]}
{"id": "C12", "title": "Sum of squares is accurate", "statement": "nanos_sum_squares equals the exact sum of squares whenever the exact sum is at most 2^53, is never negative or NaN, and in general is the IEEE-754 double sum with bounded relative error.", "quantifier": "all sequences of int64 timings", "why_tests_cant": "floating-point rounding over unbounded sequences", "anchors": ["interval_aggregation.go: TimerAggregation.ingest"]}
{"id": "C13", "title": "Gauges report the last value", "statement": "A gauge's value is the last value emitted for it in the interval, both at top level (any job) and within each job.", "quantifier": "all histories of gauge emissions", "why_tests_cant": "order-dependence over all interleavings of jobs", "anchors": ["aggregator.go: aggregator.EmitGauge"]}
{"id": "C14", "title": "Error counters and samples", "statement": "An error counter's count is the number of errors reported for it, it keeps at most five samples, each of them an error that was reported, always including the most recent one, and consecutive equal errors take one slot.", "quantifier": "all sequences of errors and every equality pattern between them", "why_tests_cant": "ring-buffer wrap-around over unbounded sequences", "anchors": ["interval_aggregation.go: ErrorCounter.incrementAndAddError, addError, getErrorSamples", "health.go: EventErr (Emitted)", "error.go: UnmutedError", "stack/stack.go: Frames"]}
{"id": "C15", "title": "Completion counters", "statement": "For each job the five status counters are the numbers of completions with that status, they sum to the job's count when all statuses are the five defined ones, and the job's timer summarises the completion times.", "quantifier": "all histories of completions, all status values including undefined ones", "why_tests_cant": "unbounded histories", "anchors": ["interval_aggregation.go: JobAggregation.ingest", "aggregator.go: aggregator.EmitComplete"]}
{"id": "C16", "title": "Bounded retention window", "statement": "At most retain/interval intervals are kept, they are the most recent ones touched, in strictly increasing order of start, each start is a multiple of the interval length, and data already recorded in a retained interval is not changed by sliding.", "quantifier": "all interval and retain durations with retain >= interval > 0, all histories with a non-decreasing clock", "why_tests_cant": "window slides over unbounded histories; array shifting", "anchors": ["aggregator.go: newAggregator, createIntervalAggregation, getIntervalAggregation"]}
{"id": "C17", "title": "Any retention setting is safe", "statement": "NewJsonPollingSink with any positive interval and non-negative retain can be emitted to without crashing the process.", "quantifier": "all pairs of durations", "why_tests_cant": "needs every pair; fails for retain < interval", "anchors": ["aggregator.go: newAggregator, createIntervalAggregation", "json_polling_sink.go: NewJsonPollingSink"]}
{"id": "C18", "title": "One entry per interval even if the clock steps back", "statement": "GetMetrics never lists two intervals with the same start.", "quantifier": "all histories with arbitrary clocks", "why_tests_cant": "wall clock steps are not exercised by tests", "anchors": ["aggregator.go: getIntervalAggregation"]}
{"id": "C19", "title": "Serial number is a change stamp", "statement": "Every emission raises the serial number of the current interval by exactly one, ticks and reads never change it, and two reads of the same interval of the same sink that show the same serial number show identical contents.", "quantifier": "all histories with a non-decreasing clock, all pairs of reads", "why_tests_cant": "relates pairs of arbitrary points of a history", "anchors": ["aggregator.go: aggregator.EmitEvent, EmitEventErr, EmitTiming, EmitGauge, EmitComplete", "interval_aggregation.go: IntervalAggregation.SerialNumber"]}
{"id": "C20", "title": "GetMetrics returns a stable snapshot", "statement": "The structure returned by GetMetrics is never modified by later emissions, ticks or reads, and equals the aggregator's contents at the time of the read.", "quantifier": "all histories before and after the read, arbitrary clocks, pointer-level heap", "why_tests_cant": "aliasing through maps and pointers; only the current interval is copied", "anchors": ["aggregator.go: memorySafeIntervals", "interval_aggregation_clone.go: IntervalAggregation.Clone"]}
{"id": "C21", "title": "Clone is a deep, equal, disjoint copy", "statement": "Clone returns an aggregation with the same contents that shares no mutable memory with the original: no mutation of one is visible through the other.", "quantifier": "all heaps and all aggregations in them", "why_tests_cant": "pointer aliasing for every nesting and size", "anchors": ["interval_aggregation_clone.go"]}
{"id": "C22", "title": "Merge adds counters", "statement": "After a.Merge(b), every event count, error count, timer count and sum, and job counter of a is the sum of the two (missing meaning zero), keys are the union, gauges of b win, and the serial number rises by one.", "quantifier": "all pairs of aggregations", "why_tests_cant": "all key overlaps and sizes", "anchors": ["interval_aggregation_merge.go"]}
{"id": "C23", "title": "Merged minimum and maximum are right", "statement": "After merging, a job's or timer's min/max are the min/max over all measurements behind both sides.", "quantifier": "all pairs of aggregations produced by sinks, including jobs that have not completed anything", "why_tests_cant": "needs a job with events but no completions on one side", "anchors": ["interval_aggregation_merge.go: TimerAggregation.merge"]}
{"id": "C24", "title": "Merge leaves its argument alone", "statement": "a.Merge(b) does not modify b, and no later mutation of a is visible through b.", "quantifier": "all heaps, all pairs of disjoint aggregations", "why_tests_cant": "pointer aliasing for every nesting and size", "anchors": ["interval_aggregation_merge.go: IntervalAggregation.Merge, aggregationMaps.merge"]}
{"id": "C25", "title": "Merging per-host aggregates equals aggregating everything in one place", "statement": "If a history of commands is split over several sinks, merging their aggregates of an interval gives the same event, error, completion and timer counts and sums as one sink that saw the whole history.", "quantifier": "all histories and all ways to split them over any number of hosts", "why_tests_cant": "unbounded histories and splits", "anchors": ["interval_aggregation_merge.go", "aggregator.go"]}
{"id": "C26", "title": "Merge order does not matter", "statement": "The merged counts, sums, minima and maxima do not depend on the order in which hosts are merged (healthd merges in random map order).", "quantifier": "all lists of aggregations and all permutations", "why_tests_cant": "all permutations", "anchors": ["interval_aggregation_merge.go", "healthd/healthd.go: recalculateIntervals"]}
{"id": "C27", "title": "Merged sum of squares does not depend on merge order", "statement": "The merged nanos_sum_squares does not depend on the order of hosts.", "quantifier": "all lists of aggregations and all permutations", "why_tests_cant": "floating-point non-associativity", "anchors": ["interval_aggregation_merge.go: TimerAggregation.merge"]}
{"id": "C28", "title": "The polling sink processes commands exactly once in order", "statement": "Every command accepted by the sink's queue before shutdown is processed at most once, in the order accepted, none is skipped over, and at most 4096 are waiting.", "quantifier": "all interleavings of emitters, ticks, readers and shutdown", "why_tests_cant": "goroutine schedules", "anchors": ["json_polling_sink.go", "aggregator.go: startAggregator"]}
{"id": "C29", "title": "GetMetrics sees a prefix", "statement": "GetMetrics returns the aggregate of a prefix of the accepted commands, and successive reads see growing prefixes.", "quantifier": "all interleavings", "why_tests_cant": "goroutine schedules", "anchors": ["json_polling_sink.go: GetMetrics", "aggregator.go: startAggregator"]}
{"id": "C30", "title": "Read your writes", "statement": "An Emit that returned before GetMetrics was called is included in the result.", "quantifier": "all interleavings", "why_tests_cant": "depends on the select choice", "anchors": ["json_polling_sink.go: EmitEvent, GetMetrics", "aggregator.go: startAggregator"]}
{"id": "C31", "title": "Shutdown stops the sink for good", "statement": "After ShutdownServer returns the aggregator makes no further step; later GetMetrics and a second ShutdownServer never return, and emitters block once the queue is full.", "quantifier": "all interleavings and all later histories", "why_tests_cant": "liveness over unbounded executions", "anchors": ["json_polling_sink.go: ShutdownServer", "aggregator.go: startAggregator"]}
{"id": "C32", "title": "/health serves the JSON it built", "statement": "The body of a /health response is the JSON document of the metrics, byte for byte.", "quantifier": "all metric names, hence all JSON texts", "why_tests_cant": "the failing inputs contain a percent sign", "anchors": ["json_polling_sink_http.go: ServeHTTP", "healthd/api.go: renderJson"]}
{"id": "C33", "title": "Any gauge value keeps /health working", "statement": "Emitting a gauge with any float64 value leaves /health able to render the other metrics.", "quantifier": "all float64 values, all metrics", "why_tests_cant": "NaN and infinities", "anchors": ["json_polling_sink_http.go: ServeHTTP, renderError", "aggregator.go: EmitGauge"]}
{"id": "C34", "title": "Wire format round-trip", "statement": "healthd's decoding of a sink's /health document yields the same intervals (times, serial numbers, jobs, counters, gauges, timers, error counts), except for error samples, which are not transmitted.", "quantifier": "all finite metrics", "why_tests_cant": "all shapes and sizes", "anchors": ["json_polling_sink_http.go: HealthAggregationsResponse", "interval_aggregation.go: json tags", "healthd/poll.go: poll"]}
{"id": "C35", "title": "StatsD datagrams fit", "statement": "Every UDP datagram the StatsD sink sends has between 1 and 1440 bytes.", "quantifier": "all command histories, options and sanitizers", "why_tests_cant": "all packing combinations", "anchors": ["statsd_sink.go: writeStatsDMetric, flush"]}
{"id": "C36", "title": "StatsD metrics are whole, in order, never lost or duplicated", "statement": "The datagrams sent so far followed by the pending buffer are the concatenation, in order, of the metric lines of the processed commands that are at most 1440 bytes long, and no datagram splits a line.", "quantifier": "all command histories, options and sanitizers", "why_tests_cant": "all packing combinations", "anchors": ["statsd_sink.go: writeStatsDMetric, flush, processCmd"]}
{"id": "C37", "title": "StatsD lines are what the command says", "statement": "Each processed command yields exactly the lines its kind, job, event, options and value call for: counters 1|c, timings |ms, gauges |g, errors with suffix error, completions prefix.job.status, each named by the dot-joined non-empty sanitised parts, regardless of which names were seen before (buffer reuse is invisible).", "quantifier": "all command histories, options and sanitizers", "why_tests_cant": "cache state after arbitrary histories", "anchors": ["statsd_sink.go: processEvent, processEventErr, processTiming, processGauge, processComplete, getPrefixBuffer, writeSanitizedKeys"]}
{"id": "C38", "title": "Default sanitizer makes names safe", "statement": "With the default sanitizer a metric line contains exactly one colon, one bar and one newline in protocol position, whatever bytes the job, event and prefix contain.", "quantifier": "all byte strings", "why_tests_cant": "all byte strings", "anchors": ["statsd_sink.go: sanitizeKey, writeSanitizedKeys"]}
{"id": "C39", "title": "StatsD metric names are never empty", "statement": "Every metric line starts with a non-empty name.", "quantifier": "all jobs, events, options", "why_tests_cant": "the failing case has everything empty", "anchors": ["statsd_sink.go: writeSanitizedKeys"]}
{"id": "C40", "title": "Timing text is accurate and monotone", "statement": "The timing sent to StatsD is within 0.005001 ms of the true value below 10 ms and is the whole number of milliseconds above, and larger nanoseconds never print as a smaller number.", "quantifier": "all int64 nanoseconds", "why_tests_cant": "2^64 values, floating-point rounding and a format switch at 10 ms", "anchors": ["statsd_sink.go: writeNanosToTimingBuf"]}
{"id": "C41", "title": "Drain delivers everything emitted before it", "statement": "When Drain returns, every metric accepted by the queue before Drain's command was processed and its datagram sent.", "quantifier": "all interleavings of emitters, flush ticks and one Drain", "why_tests_cant": "goroutine schedules", "anchors": ["statsd_sink.go: Drain, loop"]}
{"id": "C42", "title": "Concurrent Drain and Stop calls return", "statement": "Calls to Drain and Stop from several goroutines all return.", "quantifier": "all interleavings", "why_tests_cant": "needs a second control command to arrive inside the drain loop", "anchors": ["statsd_sink.go: Drain, Stop, loop, processCmd"]}
{"id": "C43", "title": "Stop does not lose metrics", "statement": "When Stop returns, all metrics accepted before it were sent.", "quantifier": "all interleavings", "why_tests_cant": "needs unflushed buffer at Stop", "anchors": ["statsd_sink.go: Stop, loop, flush"]}
{"id": "C44", "title": "WriterSink writes one deterministic line per emission", "statement": "Each emission makes exactly one Write whose bytes are a function of the emission and the timestamp only (key/values sorted by key, independent of map iteration order), ending in a newline.", "quantifier": "all emissions and all map iteration orders", "why_tests_cant": "randomised map order", "anchors": ["writer_sink.go: EmitEvent, EmitEventErr, EmitTiming, EmitGauge, EmitComplete, writeMapConsistently"]}
{"id": "C45", "title": "One line per emission", "statement": "The bytes written for an emission contain exactly one newline.", "quantifier": "all byte strings for names, errors, keys and values", "why_tests_cant": "the failing inputs contain newlines", "anchors": ["writer_sink.go"]}
{"id": "C46", "title": "Human-readable times", "statement": "A logged time has unit ns up to 2000, microseconds up to 2000000 and ms above, and the printed number times its unit is within one unit below the true value.", "quantifier": "all int64 nanoseconds", "why_tests_cant": "all int64 values and both boundaries", "anchors": ["writer_sink.go: writeNanoseconds"]}
{"id": "C47", "title": "JsonWriterSink output decodes to the emission", "statement": "Each emission with a finite value makes one Write holding one JSON object that decodes to the emitted job, event, status, value and key/values; a NaN or infinite gauge writes nothing.", "quantifier": "all emissions with valid UTF-8 text", "why_tests_cant": "all strings", "anchors": ["json_writer_sink.go"]}
{"id": "C48", "title": "Librato batch contents", "statement": "The batch built at a flush contains, for each metric key touched since the previous flush, the exact count of events or the count/sum/min/max/sum-of-squares of its measurements, for both event and job.event keys, and nothing else; counters never hide timers.", "quantifier": "all command histories and flush points", "why_tests_cant": "unbounded histories, key collisions", "anchors": ["sinks/librato/sink.go: processEvent, processEventErr, processTiming, processGauge, processComplete, eventKeys, measure, inc, purge, send"]}
{"id": "C49", "title": "Librato flush isolates periods", "statement": "After a flush, successful or not, the next batch reflects only commands processed after it.", "quantifier": "all histories and all send outcomes", "why_tests_cant": "histories with failures", "anchors": ["sinks/librato/sink.go: purge, send"]}
{"id": "C50", "title": "Librato names are valid", "statement": "Sanitised job and event names consist only of characters Librato allows, allowed names are unchanged, and sanitising twice equals sanitising once.", "quantifier": "all byte strings", "why_tests_cant": "all strings, invalid UTF-8 included", "anchors": ["sinks/librato/sink.go: sanitizeKey, shouldSanitize"]}
{"id": "C51", "title": "Bugsnag payload is faithful", "statement": "The payload carries the API key, one event whose context is the job, one exception with class = event name, message = error text, all frames in order with InProject the negation of system package, and the request and form data taken from the key/values when present.", "quantifier": "all configs, jobs, events, errors, traces and key/values", "why_tests_cant": "all combinations", "anchors": ["sinks/bugsnag/api.go: newPayload"]}
{"id": "C52", "title": "healthd publishes the merge of the latest host data", "statement": "After a recalculation, the published aggregation of every interval that changed is the merge of the most recent data stored for it from each (host, instance), each counted once however often it was polled.", "quantifier": "all sequences of poll responses, purges and recalculations, all map iteration orders", "why_tests_cant": "unbounded histories and map orders", "anchors": ["healthd/healthd.go: consumePollResponse, recalculateIntervals, setAggregation"]}
{"id": "C53", "title": "healthd's published intervals are sorted, unique and bounded", "statement": "The published sequence is strictly increasing in start time with at most 2h/interval entries.", "quantifier": "all sequences of responses with a positive interval duration", "why_tests_cant": "unbounded histories, unstable sort", "anchors": ["healthd/healthd.go: setAggregation, purge"]}
{"id": "C54", "title": "Re-polling unchanged hosts changes nothing", "statement": "Consuming a response identical to the last one of that host leaves data and the pending-recalculation set unchanged.", "quantifier": "all states reached by responses and recalculations", "why_tests_cant": "all states", "anchors": ["healthd/healthd.go: consumePollResponse"]}
{"id": "C55", "title": "healthd never loses data it already published", "statement": "The counts published for an interval never decrease while its hosts only report growing data.", "quantifier": "all sequences of responses, purges and recalculations", "why_tests_cant": "needs purge interleaved with a partial round of responses", "anchors": ["healthd/healthd.go: purge, recalculateIntervals"]}
{"id": "C56", "title": "A malformed host response cannot crash healthd", "statement": "Whatever decodable body a monitored host returns with status 200, healthd keeps running.", "quantifier": "all decoded responses", "why_tests_cant": "missing or non-positive interval_duration, null entries", "anchors": ["healthd/healthd.go: consumePollResponse, setAggregation", "healthd/poll.go: poll"]}
{"id": "C57", "title": "Equal instants are one interval", "statement": "Data for the same instant is merged into one published interval whatever time-zone offset each host used to render it.", "quantifier": "all responses and zones", "why_tests_cant": "needs hosts rendering times with different offsets", "anchors": ["healthd/healthd.go: hostAggregationKey, recalculateIntervals, setAggregation"]}
{"id": "C58", "title": "Host statuses are current", "statement": "getHosts lists each configured host exactly once with the data of the last response consumed for it; FirstSuccessfulResponse is the time of the first success and never changes, LastSuccessfulResponse is the time of the last.", "quantifier": "all response sequences", "why_tests_cant": "unbounded histories", "anchors": ["healthd/healthd.go: consumePollResponse, memorySafeHosts, StartNewHealthD", "healthd/api.go: Hosts"]}
{"id": "C59", "title": "Jobs API sorts and limits correctly", "statement": "The job list is sorted by the requested column, contains each job at most once with its true counters, has min(limit, number of jobs) entries for a positive limit and all for a non-positive one, and omitted jobs do not sort strictly before listed ones.", "quantifier": "all aggregations, sort names, limits, map orders and any correct sorting algorithm", "why_tests_cant": "all permutations and ties", "anchors": ["healthd/api.go: filterJobs, sortJobs, jobSorters, getLimit"]}
{"id": "C60", "title": "Average and standard deviation are those of the data", "statement": "NanosAvg and NanosStdDev are finite and are the mean and sample standard deviation of the completions.", "quantifier": "all multisets of completion times", "why_tests_cant": "catastrophic cancellation and int64 overflow", "anchors": ["healthd/api.go: filterJobs"]}
{"id": "C61", "title": "Overall is the merge of all intervals", "statement": "The overall aggregation is null exactly when there is no interval and otherwise has the summed counters of all published intervals.", "quantifier": "all published sequences", "why_tests_cant": "all sizes", "anchors": ["healthd/api.go: combineAggregations"]}
{"id": "C62", "title": "Debouncer fires at most once per threshold", "statement": "Two successive recalculation triggers are more than the threshold apart, there is never a trigger without a request since the previous trigger, and each trigger is more than the threshold later than the oldest request it serves.", "quantifier": "all interleavings of requests, sleeps and clock advances (non-decreasing clock)", "why_tests_cant": "unbounded timed executions", "anchors": ["healthd/debouncer.go: debouncer"]}
{"id": "C63", "title": "Every request is served within threshold plus one loop", "statement": "A pending request triggers at the first loop iteration at which more than the threshold has elapsed.", "quantifier": "all timed executions", "why_tests_cant": "unbounded timed executions", "anchors": ["healthd/debouncer.go: debouncer"]}
{"id": "C64", "title": "healthd's aggregator and debouncer never deadlock", "statement": "The aggregation loop and the debouncer never block each other forever.", "quantifier": "all interleavings, any number of hosts", "why_tests_cant": "needs more than 64 pending requests while the debouncer is triggering", "anchors": ["healthd/healthd.go: pollAndAggregate", "healthd/debouncer.go: debouncer"]}
{"id": "C65", "title": "Requests racing with Stop return", "statement": "A handler that asked for aggregations or hosts gets an answer even if Stop runs concurrently.", "quantifier": "all interleavings", "why_tests_cant": "schedule-dependent", "anchors": ["healthd/healthd.go: Stop, getAggregationSequence, getHosts, pollAndAggregate"]}
{"id": "C66", "title": "HTTP status to completion status", "statement": "healthd's own request instrumentation emits one starting_request event and one completion per request, with Success below 400, ValidationError for 422, Junk for other 4xx and Error from 500.", "quantifier": "all status codes", "why_tests_cant": "all integers, boundaries", "anchors": ["healthd/api.go: HealthMiddleware"]}
{"id": "C67", "title": "Function names split losslessly", "statement": "packageAndName splits a function name at the first period after the last slash, so that package + '.' + name is the original; a name without such a period is split after the last slash only. The name part has no slash.", "quantifier": "all byte strings", "why_tests_cant": "all strings", "anchors": ["stack/frame.go: packageAndName"]}
{"id": "C68", "title": "Stack traces are bounded and start at the reporter", "statement": "A captured trace has at most 50 frames, the first being the function that called EventErr, and Frames is idempotent.", "quantifier": "all call stacks", "why_tests_cant": "all depths", "anchors": ["stack/stack.go: NewTrace, Trace.Frames", "error.go: wrapErr"]}
{"id": "C69", "title": "Runtime metrics report exactly what is enabled", "statement": "Report emits exactly the gauges of the enabled groups, once each and in a fixed order; Stop returns only after the last report and no report follows.", "quantifier": "all option sets, readings and interleavings of ticks and Stop", "why_tests_cant": "all option sets and schedules", "anchors": ["runtime_metrics/runtime_metrics.go: Report, Stop, metricsPoller, NewRuntimeMetrics"]}
{"id": "C70", "title": "healthtop name filter and status line", "statement": "healthtop lists exactly the jobs whose name contains the filter, in order, and shows an error exactly when the last error is later than the last success.", "quantifier": "all responses, names and histories of polls", "why_tests_cant": "all inputs", "anchors": ["cmd/healthtop/jobs.go: filterJobsByName", "cmd/healthtop/main.go: FmtStatus"]}
{"id": "C71", "title": "Overlapping Drain calls deliver", "statement": "Also when several goroutines call Drain at once, each returns only after the metrics accepted before its own call were sent.", "quantifier": "all interleavings of emitters and several Drain calls", "why_tests_cant": "the done signal of one Drain can be consumed by another caller", "anchors": ["statsd_sink.go: Drain, loop"]}
{"id": "C72", "title": "Each event counts once per metric name", "statement": "An event increments each StatsD metric it maps to exactly once.", "quantifier": "all jobs, events and options", "why_tests_cant": "needs all names, including empty ones", "anchors": ["statsd_sink.go: processEvent, getPrefixBuffer, writeSanitizedKeys"]}
{"id": "C73", "title": "Emitting returns", "statement": "Emitting to a StatsD sink returns, also after the sink was stopped.", "quantifier": "all interleavings", "why_tests_cant": "needs 8192 commands after Stop", "anchors": ["statsd_sink.go: EmitEvent, Stop, loop"]}
{"id": "C74", "title": "Reporting a nil error is harmless", "statement": "EventErr and EventErrKv called with a nil error return an error whose message can be read, or nil.", "quantifier": "all histories and jobs", "why_tests_cant": "depends on the dynamic type of the error and on who reads the message later", "anchors": ["error.go: wrapErr, UnmutedError.Error", "health.go: EventErr, EventErrKv"]}
{"id": "C75", "title": "Accepted Bugsnag notifications are sent", "statement": "Every notification the Bugsnag sink accepted is passed to Notify exactly once, in order, including those accepted before ShutdownServer, and reporting never blocks for good.", "quantifier": "all interleavings of reports, the sending goroutine and ShutdownServer", "why_tests_cant": "depends on which case the select takes and on the queue length at shutdown", "anchors": ["sinks/bugsnag/sink.go: NewSink, EmitEventErr, ShutdownServer, errorProcessingLoop"]}
{"id": "C76", "title": "Bugsnag configuration is honoured", "statement": "The documented configuration takes effect: AppVersion reaches Bugsnag, ReleaseStage defaults to production, Hostname to the host's name, Endpoint to the public one.", "quantifier": "all configurations", "why_tests_cant": "all configurations, including empty fields", "anchors": ["sinks/bugsnag/api.go: Config, newPayload", "sinks/bugsnag/sink.go: NewSink"]}
{"id": "C77", "title": "System packages are those inside GOROOT", "statement": "A frame is marked as a system package exactly when its file lies inside GOROOT.", "quantifier": "all GOROOT and file paths", "why_tests_cant": "depends on the directory names on the build machine", "anchors": ["stack/frame.go: isSystemPackage"]}
{"id": "C78", "title": "healthd reports every poll", "statement": "Each poll of a host sends exactly one response, and every sink of healthd's stream gets one completion of the job poll with the host in its key/values: Success exactly when the reply could be read and decoded, otherwise Error after one error event naming the step that failed, with the error's text in the response.", "quantifier": "all hosts, outcomes of the request and histories of the stream", "why_tests_cant": "all combinations of failures and sinks", "anchors": ["healthd/poll.go: poll"]}
{"id": "C79", "title": "Hosts API lists every host in order", "statement": "The hosts answer is the list of host statuses, each exactly once, in byte order of host and port.", "quantifier": "all status maps and any correct sorting algorithm", "why_tests_cant": "all lists", "anchors": ["healthd/api.go: Hosts, HostStatusByHostPort"]}
{"id": "C80", "title": "The nil of a round comes after every host's response", "statement": "When the aggregation loop takes the nil that ends a round of polls, it has taken exactly one response of that round from every host; each round has one nil, and no response of the round comes later.", "quantifier": "all interleavings of overlapping rounds, any hosts", "why_tests_cant": "depends on how rounds overlap in the channel", "anchors": ["healthd/healthd.go: poll, pollAndAggregate"]}
{"id": "C81", "title": "The aggregation loop is serial and answers are current", "statement": "The aggregation state is the result of the loop's operations one after the other, and a handler gets the published intervals or the statuses as of all operations performed when it gets them.", "quantifier": "all interleavings of polls, ticks, triggers, handlers and Stop", "why_tests_cant": "schedule-dependent", "anchors": ["healthd/healthd.go: pollAndAggregate, getAggregationSequence, getHosts"]}
{"id": "C82", "title": "Stop ends the aggregation loop", "statement": "After Stop is called no handler asks the loop any more; Stop returns; after it returned nothing is aggregated or answered.", "quantifier": "all interleavings, any number of callers of Stop", "why_tests_cant": "schedule-dependent", "anchors": ["healthd/healthd.go: Stop, shouldStop, pollAndAggregate"]}
{"id": "C83", "title": "Librato metrics of different events have different names", "statement": "Two different things reported (events, errors, timings, gauges, completions, and the job-less and per-job versions of each) never share a metric name in a Librato batch.", "quantifier": "all names the sanitiser leaves alone", "why_tests_cant": "all names and combinations", "anchors": ["sinks/librato/sink.go: eventKeys, processEvent, processEventErr, processTiming, processGauge, processComplete"]}
{"id": "C84", "title": "One measurement never keeps a batch from being sent", "statement": "Every batch with data can be serialised and is sent.", "quantifier": "all emitted values", "why_tests_cant": "needs a finite value whose square overflows", "anchors": ["sinks/librato/sink.go: send, measure"]}
{"id": "C85", "title": "Librato Stop delivers what was emitted", "statement": "Everything emitted before Stop was called is in a batch sent before Stop returns.", "quantifier": "all interleavings of emitters, ticks and Stop", "why_tests_cant": "schedule-dependent", "anchors": ["sinks/librato/sink.go: Stop, start, New"]}
{"id": "C86", "title": "Emitting to Librato returns", "statement": "Emitting to a Librato sink returns, also after Stop.", "quantifier": "all interleavings", "why_tests_cant": "needs 4096 queued commands", "anchors": ["sinks/librato/sink.go: EmitEvent, EmitTiming, Stop, start"]}
{"id": "C87", "title": "Stop ends all runtime reporting", "statement": "After Stop returned nothing is reported, however often Start was called before.", "quantifier": "all histories of Start and Stop", "why_tests_cant": "needs two pollers", "anchors": ["runtime_metrics/runtime_metrics.go: Start, Stop, metricsPoller"]}
{"id": "C88", "title": "Any options are safe to start", "statement": "NewRuntimeMetrics followed by Start does not crash for any Options.", "quantifier": "all options", "why_tests_cant": "depends on the options, including their zero value", "anchors": ["runtime_metrics/runtime_metrics.go: NewRuntimeMetrics, Start, metricsPoller"]}
{"id": "C89", "title": "healthtop cells show the data", "statement": "A host is shown as Success in green exactly when its last poll was answered 200 without error, as Unknown if it was never polled and otherwise as a failure with the error; a time is shown as the number of whole units it contains, in ns up to 1000, in microseconds up to 2000000 and otherwise in ms.", "quantifier": "all statuses and all int64 times", "why_tests_cant": "all values", "anchors": ["cmd/healthtop/hosts.go: printHost", "cmd/healthtop/jobs.go: printJob"]}
{"id": "C90", "title": "healthtop finds healthd by default", "statement": "Without configuration healthtop polls the address on which healthd serves its API.", "quantifier": "the default configurations", "why_tests_cant": "two programs are involved", "anchors": ["cmd/healthtop/main.go: main", "cmd/healthd/main.go: getServerHostPort"]}
{"id": "C91", "title": "healthd monitors the configured hosts and itself", "statement": "healthd polls exactly the comma-separated hosts of its environment followed by its own health address, and refuses to start without any.", "quantifier": "all values of the environment variables", "why_tests_cant": "all strings", "anchors": ["cmd/healthd/main.go: main, getMonitoredHostPorts, getHealthHostPort"]}
{"id": "C92", "title": "Gauge text is accurate", "statement": "The text StatsD gets for a gauge is a decimal number within 0.005 of the gauge.", "quantifier": "all doubles", "why_tests_cant": "2^64 values, rounding to two decimals and a switch of format at 0.1", "anchors": ["statsd_sink.go: processGauge"]}
{"id": "C93", "title": "healthtop shows the jobs healthd computed", "statement": "The rows healthtop receives from the jobs page are the rows healthd computed, and it reports success only if it got them.", "quantifier": "all rows", "why_tests_cant": "needs a row with a NaN, or a name with a percent sign", "anchors": ["healthd/api.go: Jobs, renderJson, renderError", "cmd/healthtop/jobs.go: pollHealthDJobs"]}
{"id": "C94", "title": "healthtop shows the host statuses healthd has", "statement": "The host statuses healthtop receives from the hosts page are those healthd has.", "quantifier": "all statuses", "why_tests_cant": "needs an error text with a percent sign", "anchors": ["healthd/api.go: Hosts, renderJson", "healthd/healthd.go: HostStatus", "cmd/healthtop/hosts.go: pollHealthDHosts"]}
{"id": "C95", "title": "A Librato request says what was accumulated", "statement": "The body posted at a flush is one JSON document with the time, the period in seconds, the source if there is one, and for each name touched since the last flush exactly one entry: the number of its events, or count, sum, minimum, maximum and sum of squares of its measurements.", "quantifier": "all runs of the sink with names in UTF-8, int64 durations and finite summaries", "why_tests_cant": "all histories, names and values", "anchors": ["sinks/librato/sink.go: send, gauge, libratoCounterValue, libratoMetricsPost"]}
{"id": "C96", "title": "A Bugsnag report is one JSON document with the error and its stack", "statement": "The body posted for an error is one JSON document with the error's event and text, the frames of the stack in order, the job, the stage, the host and the key/values; different reports in UTF-8 have different bodies.", "quantifier": "all reports", "why_tests_cant": "all strings, stacks and key/values", "anchors": ["sinks/bugsnag/api.go: Notify, newPayload, payload"]}
{"id": "C97", "title": "What healthd publishes is what the processes emitted", "statement": "After a recalculation every counter of a published interval is the total, over the processes, of what each had emitted in that interval when it gave the last answer listing it that healthd has taken; an interval that had ended by then has everything emitted in it.", "quantifier": "all executions of any number of processes and one healthd, with late, reordered, repeated, lost and failed polls, and any names and emissions", "why_tests_cant": "depends on the interleaving of emissions, polls, purges and recalculations across processes", "anchors": ["aggregator.go: getIntervalAggregation, memorySafeIntervals", "json_polling_sink_http.go: ServeHTTP", "healthd/poll.go: poll", "healthd/healthd.go: consumePollResponse, purge, recalculateIntervals"]}
{"id": "C98", "title": "What the jobs page shows is what the processes emitted", "statement": "After a recalculation the rows of the jobs page are the jobs that occur in the published intervals, each once, and their counts and total times are the totals of what the processes emitted in these intervals by the last answers taken from them.", "quantifier": "all executions of any number of processes and one healthd, all sort keys and limits", "why_tests_cant": "the whole path from emission to page", "anchors": ["healthd/api.go: Jobs, filterJobs, combineAggregations", "healthd/healthd.go: recalculateIntervals", "aggregator.go: EmitComplete"]}
{"id": "C99", "title": "A StatsD server counts and times what was emitted", "statement": "After a flush, the counter a StatsD server keeps for a name is the number of events and errors emitted under that name, and its timer has one value for each Timing and Complete under it, in order, in milliseconds; when Drain returns, all that was emitted before the call has been counted and nothing else.", "quantifier": "all histories, options with a clean sanitiser, and lines that fit a datagram", "why_tests_cant": "all histories, and how the lines fall into datagrams", "anchors": ["statsd_sink.go: processEvent, processEventErr, processTiming, processComplete, writeStatsDMetric, flush, Drain"]}
{"id": "C100", "title": "A StatsD gauge has the last value", "statement": "After a flush, the gauge a StatsD server keeps for a name is within 0.005 of the last value emitted under it.", "quantifier": "all histories of gauges", "why_tests_cant": "needs two negative gauges", "anchors": ["statsd_sink.go: processGauge"]}
{"id": "C101", "title": "StatsD metrics of different events have different names", "statement": "Two different things reported (events, errors, timings, gauges, completions, and the job-less and per-job versions of each) never share a metric name and type.", "quantifier": "all names of letters, digits, underscore and dollar", "why_tests_cant": "all names and combinations", "anchors": ["statsd_sink.go: getPrefixBuffer, writeSanitizedKeys, sanitizeKey, processEvent, processEventErr, processTiming, processGauge, processComplete"]}
{"id": "C102", "title": "healthd's loop and its handlers share no memory", "statement": "What healthd stores and publishes is what its responses, purges and recalculations make it, whatever the HTTP handlers do to the snapshots they were sent; a snapshot shows the published intervals in memory that nothing else refers to, and no later operation of the loop writes to it.", "quantifier": "all executions of the loop, all reads and all writes by other goroutines to memory they were given, in any interleaving", "why_tests_cant": "aliasing shows only under particular interleavings of handlers and the loop", "anchors": ["healthd/healthd.go: consumePollResponse, purge, recalculateIntervals, setAggregation, memorySafeIntervals", "interval_aggregation_merge.go: Merge", "interval_aggregation_clone.go: Clone"]}
{"id": "C103", "title": "healthtop shows healthd's latest answer", "statement": "When no request of healthtop is outstanding it shows the last page healthd answered with; requests do not pile up; every answer reaches the screen at most once.", "quantifier": "all interleavings of ticks, answers, errors and receives of healthtop's loop and its polling goroutines", "why_tests_cant": "needs polls that overlap and answers received in another order than they were given", "anchors": ["cmd/healthtop/jobs.go: jobsLoop, pollHealthDJobs", "cmd/healthtop/hosts.go: hostsLoop, pollHealthDHosts"]}
{"id": "C104", "title": "healthtop's tables have a row for every job and host", "statement": "The table lists every job (host) of the answer in one row, in order, with its values under the right headings; counts are green exactly when all runs succeeded, a count of failures is red exactly when there is one; no answer ends the program.", "quantifier": "all answers, including nulls and every name; every goterm that only adds changes of style", "why_tests_cant": "names with control characters, null elements and values at the unit boundaries are not in any test", "anchors": ["cmd/healthtop/jobs.go: printJobs, printJob, printCellNanos, printCellInt64, printCellString, format", "cmd/healthtop/hosts.go: printHosts, printHost"]}
{"id": "C105", "title": "Every sink hears every call of every goroutine once", "statement": "With any number of goroutines and sinks, each sink is told each goroutine's calls in their order, at most one call ahead of what returned and never ahead of an earlier sink; when all calls have returned each sink has been told all of them once and nothing else. Sinks of every kind (polling, StatsD, Librato, Bugsnag) run as they would alone.", "quantifier": "all programs of calls, all sinks, all interleavings of callers, sink goroutines, reads, drains and stops", "why_tests_cant": "needs control over the interleaving of goroutines", "anchors": ["health.go: Event, EventKv, EventErr, Timing, Gauge, Complete (the loops over Sinks)", "json_polling_sink.go: Emit*", "statsd_sink.go: Emit*", "sinks/librato/sink.go: Emit*", "sinks/bugsnag/sink.go: Emit*"]}
{"id": "C106", "title": "A stopped sink does not hold up callers or other sinks", "statement": "A sink that was stopped or is stuck keeps neither the callers from returning nor the other sinks from hearing of the calls.", "quantifier": "all programs of calls, all sinks, all interleavings", "why_tests_cant": "needs a stopped sink and a full queue", "anchors": ["health.go: the loops over Sinks", "statsd_sink.go: Emit*, Stop, loop", "json_polling_sink.go: Emit*, ShutdownServer", "aggregator.go: startAggregator", "sinks/librato/sink.go: Emit*, Stop, start", "sinks/bugsnag/sink.go: EmitEventErr, ShutdownServer, errorProcessingLoop"]}
{"id": "C107", "title": "Totals of concurrent callers agree at all sinks", "statement": "When all calls of all goroutines have returned, a Drain of the StatsD sink leaves a StatsD server with exactly the number of events and errors of all goroutines, and a read of the polling sink with an empty queue shows exactly the number of events of all goroutines, summed over its intervals.", "quantifier": "all programs of calls, all sinks, all interleavings", "why_tests_cant": "the composition of the fan-out, two queues, packing into datagrams and aggregation into intervals", "anchors": ["health.go: the loops over Sinks", "statsd_sink.go: Drain, loop", "aggregator.go: startAggregator, getIntervalAggregation", "json_polling_sink.go: GetMetrics"]}
{"id": "C108", "title": "Any JSON answer is read by Go's rules or reported as an error", "statement": "From a body that is JSON healthd reads an answer exactly when json.Unmarshal's rules allow one (names whatever their case, absent and null members as zero values, the last of equal keys, int64 without fraction or exponent, nil pointers for null elements), whatever the order of the members and whatever other members there are; otherwise the poll is a failure. The same for the pages healthtop reads.", "quantifier": "all JSON texts", "why_tests_cant": "all shapes of documents: missing, repeated, reordered, null and ill-typed members at every level", "anchors": ["healthd/poll.go: poll", "cmd/healthtop/jobs.go: pollHealthDJobs", "cmd/healthtop/hosts.go: pollHealthDHosts", "json_polling_sink_http.go: HealthAggregationsResponse"]}
{"id": "C109", "title": "The polling sink serves its callers", "statement": "In every fair execution in which the sink is not shut down, everything it accepted is aggregated sooner or later, its queue has room again, and every GetMetrics returns; ShutdownServer, called once, returns.", "quantifier": "all executions without end in which the select overlooks no case for ever; intervals of positive length within the retention", "why_tests_cant": "liveness: no finite test shows that something happens in every execution", "anchors": ["aggregator.go: startAggregator", "json_polling_sink.go: GetMetrics, ShutdownServer, Emit*"]}
{"id": "C110", "title": "The StatsD sink sends what it accepted", "statement": "In every fair execution without Stop, everything the sink accepted is written into its packets sooner or later and its queue has room again; without Drain it is sent by the ticks; Stop, called once, returns.", "quantifier": "all executions without end in which the loop goes on and the ticker gets its turn, all options", "why_tests_cant": "liveness: no finite test shows that something happens in every execution", "anchors": ["statsd_sink.go: loop, Stop, Emit*, flush"]}
{"id": "C111", "title": "Drain returns", "statement": "A Drain of the StatsD sink returns in every fair execution without Stop.", "quantifier": "all executions without end in which the loop goes on and the ticker gets its turn, all options", "why_tests_cant": "needs callers that keep emitting for ever", "anchors": ["statsd_sink.go: Drain, loop, processCmd"]}
{"id": "C112", "title": "The Librato sink sends what it accepted", "statement": "In every fair execution without Stop, everything the sink accepted has been taken into its maps when some later tick sends them; Stop returns.", "quantifier": "all executions without end in which the select overlooks no case for ever", "why_tests_cant": "liveness: no finite test shows that something happens in every execution", "anchors": ["sinks/librato/sink.go: start, Stop, Emit*"]}
{"id": "C113", "title": "The Bugsnag sink notifies what it accepted", "statement": "In every fair execution without ShutdownServer, every error the sink accepted is notified sooner or later.", "quantifier": "all executions without end in which the loop goes on", "why_tests_cant": "liveness: no finite test shows that something happens in every execution", "anchors": ["sinks/bugsnag/sink.go: errorProcessingLoop, EmitEventErr"]}
{"id": "C114", "title": "healthd goes on", "statement": "In every fair execution in which healthd neither panics nor deadlocks and is not stopped, every answer of a host is taken by the loop, the intervals are recalculated after it, and every request of a page is answered; Stop, called once, returns. While fewer than 64 answers are taken between two moments at which the debouncer finds no request, it does not deadlock.", "quantifier": "all executions without end in which the select overlooks no case for ever and the clock goes on", "why_tests_cant": "liveness: no finite test shows that something happens in every execution", "anchors": ["healthd/healthd.go: pollAndAggregate, Stop, getAggregationSequence, getHosts", "healthd/debouncer.go: debouncer"]}
{"id": "C115", "title": "Every call returns and arrives", "statement": "In every fair execution of goroutines and sinks in which no sink is stopped, every call of every goroutine returns, sooner or later every polling sink has aggregated each of them once, (without Drain, for lines that fit a datagram) the server behind every StatsD sink has counted exactly them, every Librato sink has flushed after each of them once, and every Bugsnag sink has sent each report of a new error once.", "quantifier": "all programs of calls, all sinks, all executions without end in which waiting goroutines get their turn and the sinks are fair", "why_tests_cant": "liveness of a composition: goroutines waiting for room in the queues of several sinks", "anchors": ["health.go: the loops over Sinks", "aggregator.go: startAggregator", "statsd_sink.go: loop, Emit*", "json_polling_sink.go: Emit*", "sinks/librato/sink.go: start", "sinks/bugsnag/sink.go: errorProcessingLoop"]}
{"id": "C116", "title": "What was emitted is shown sooner or later", "statement": "In every fair execution of healthd that neither deadlocks nor is stopped, an answer of a process that is in the queue is taken; and from some time on every page shows every interval healthd had heard of, until a purge drops it, with in every counter what the processes had emitted when they gave the answers taken last (or shows only intervals that are not older).", "quantifier": "all processes and emissions, all executions without end in which the select overlooks no case for ever and the clock goes on", "why_tests_cant": "liveness of a composition: queue, debouncer, recalculation and page", "anchors": ["healthd/healthd.go: pollAndAggregate, consumePollResponse, recalculateIntervals, memorySafeIntervals", "healthd/debouncer.go: debouncer", "healthd/poll.go: poll", "json_polling_sink_http.go: ServeHTTP"]}
{"id": "C117", "title": "Identifiers tell processes apart", "statement": "Two processes that healthd polls never have the same identifier, so that what one of them counted is never taken for what another did.", "quantifier": "all host names and pids, including failures of os.Hostname; all executions of processes and healthd", "why_tests_cant": "needs processes restarted with the pid they had, as in containers, and machines whose name cannot be found", "anchors": ["identifier.go: getIdentifier", "healthd/healthd.go: consumePollResponse"]}
{"id": "C118", "title": "num_fds_used is the number of open descriptors", "statement": "The gauge num_fds_used that RuntimeMetrics emits is the number of descriptors the process has open, and counting them leaves them as they are.", "quantifier": "all sets of open descriptors and limits", "why_tests_cant": "tests do not open descriptors, still less all of them", "anchors": ["runtime_metrics/fds_linux.go: getFDUsage", "runtime_metrics/fds_darwin.go: getFDUsage", "runtime_metrics/runtime_metrics.go: Report"]}
{"id": "C119", "title": "An error reported by several goroutines at once is notified once", "statement": "However many goroutines report one wrapped error, at the same time or not, a Bugsnag sink is asked to notify it exactly once.", "quantifier": "all programs of calls, all interleavings of their steps", "why_tests_cant": "needs control over the interleaving of two reports", "anchors": ["health.go: EventErr, EventErrKv", "sinks/bugsnag/sink.go: EmitEventErr"]}
{"id": "C120", "title": "Callers and sinks do not race", "statement": "No goroutine writes shared memory (key/values of streams, jobs and callers, the list of sinks, the Emitted flag and stack frames of errors) while another reads or writes it: a map written during an iteration ends the process.", "quantifier": "all programs of calls by any number of goroutines, all interleavings with the goroutines of Bugsnag and polling sinks", "why_tests_cant": "the race detector sees only the interleavings that occur", "anchors": ["health.go: KeyValue, AddSink, mergedKeyValues, the loops over Sinks, EventErr", "sinks/bugsnag/sink.go: EmitEventErr, errorProcessingLoop", "sinks/bugsnag/api.go: newPayload", "stack/stack.go: Frames", "interval_aggregation.go: ErrorCounter.addError"]}
{"id": "C121", "title": "healthtop's table shows what the processes emitted", "statement": "Every line of healthtop's table of jobs is a job that was emitted in the intervals the page is made of, and its counts and total time are the totals of what the processes emitted in them by the last answers healthd took; every job is there if the limit allows.", "quantifier": "all executions of any number of processes and one healthd, all sort keys and limits, legible rows", "why_tests_cant": "the whole path: emission, aggregation, poll, merge, page, decoding, table", "anchors": ["cmd/healthtop/jobs.go: printJobs, printJob, pollHealthDJobs", "healthd/api.go: Jobs", "healthd/healthd.go: recalculateIntervals", "aggregator.go: EmitComplete"]}
{"id": "C122", "title": "Runtime metrics go on", "statement": "In every fair execution a poller that was started and not stopped reports again and again; every report that was begun is emitted whole, even if Stop is called meanwhile; a Stop is taken sooner or later if a poller is left for it, and one that was taken returns.", "quantifier": "all executions without end with any number of Starts and Stops, all options with a positive interval", "why_tests_cant": "liveness: no finite test shows that something happens in every execution", "anchors": ["runtime_metrics/runtime_metrics.go: Start, Stop, metricsPoller, Report"]}
{"id": "C123", "title": "healthd's goroutines do not race", "statement": "No goroutine of healthd (its loop, the polls and HTTP handlers) writes memory while another reads or writes it.", "quantifier": "all executions of the loop, any number of polls and of handlers, memory access by memory access", "why_tests_cant": "the race detector sees only the interleavings that occur", "anchors": ["healthd/healthd.go: pollAndAggregate, consumePollResponse, purge, recalculateIntervals, memorySafeIntervals, getHosts", "healthd/api.go: Aggregations, Overall, Jobs, Hosts", "healthd/poll.go: poll"]}
{"id": "C124", "title": "The interval duration on a page is that of its intervals", "statement": "Every interval that went into a page of healthd has the interval duration the page states, and it is not zero.", "quantifier": "all executions of the loop, any number of polls and of handlers, memory access by memory access", "why_tests_cant": "the duration is read after the intervals were fetched, by another goroutine than the one that sets it", "anchors": ["healthd/api.go: Aggregations, Overall, Jobs, Hosts", "healthd/healthd.go: consumePollResponse, memorySafeIntervals"]}
{"id": "C125", "title": "Stop ends healthd's goroutines", "statement": "When Stop has returned, the goroutines healthd started end sooner or later.", "quantifier": "all executions without end in which polls end and sleepers wake up", "why_tests_cant": "a leaked goroutine shows in no test", "anchors": ["healthd/healthd.go: Stop, pollAndAggregate", "healthd/debouncer.go: debouncer", "healthd/poll.go: poll"]}
{"id": "C126", "title": "healthtop goes on", "statement": "In every fair execution every request of healthtop that ends is received, and from some time on the page it shows is one it asked for after any given moment, even if some requests are never answered.", "quantifier": "all executions without end in which the loop overlooks no goroutine for ever, and pages come again and again", "why_tests_cant": "liveness: requests overlap, fail and hang in any order", "anchors": ["cmd/healthtop/jobs.go: jobsLoop, pollHealthDJobs", "cmd/healthtop/hosts.go: hostsLoop, pollHealthDHosts"]}
{"id": "C127", "title": "What was emitted is on the screen sooner or later", "statement": "In every fair execution of processes, healthd and healthtop, when healthd has taken an answer of a process in which a job occurs, then from some time on, until the interval is purged, healthtop's table has a line for the job (if there is room) with the totals of what the processes had emitted when they gave the last answers, the one of this process not older than the answer taken.", "quantifier": "all processes and emissions, all executions without end of healthd and healthtop that are fair, answers of a process taken in order, legible pages", "why_tests_cant": "liveness of the whole path: emission, poll, queue, debouncer, recalculation, page, request, decoding, table", "anchors": ["cmd/healthtop/jobs.go: jobsLoop, pollHealthDJobs, printJobs", "healthd/api.go: Jobs", "healthd/healthd.go: pollAndAggregate, recalculateIntervals", "aggregator.go: EmitComplete, EmitEvent"]}
{"id": "C128", "title": "Every host is asked again and again", "statement": "In every fair execution in which healthd neither panics nor deadlocks and is not stopped, after every moment a response of every host is taken that was asked for in a round begun after it; and from some time on every page of hosts names every host once, with the data of its last response, asked for after any given moment.", "quantifier": "all lists of hosts, all executions without end in which ticks and polls get their turn", "why_tests_cant": "liveness: a slow poll of an old round can be overtaken by newer ones", "anchors": ["healthd/healthd.go: pollAndAggregate, poll, consumePollResponse, memorySafeHosts", "healthd/poll.go: poll"]}
{"id": "C129", "title": "How every host answers is on healthtop's screen", "statement": "In every fair execution of healthd and healthtop, from some time on healthtop's table has exactly one line for every host, in order, which tells how a poll of it went that began after any given moment: success, or the error.", "quantifier": "all lists of hosts, all executions without end of healthd and healthtop that are fair, legible pages", "why_tests_cant": "liveness of the whole path: poll, queue, status, page, request, decoding, table", "anchors": ["cmd/healthtop/hosts.go: hostsLoop, pollHealthDHosts, printHosts", "healthd/api.go: Hosts", "healthd/healthd.go: pollAndAggregate, consumePollResponse"]}
{"id": "C130", "title": "What healthd holds is bounded", "statement": "However long healthd runs, after a purge it holds at most six intervals of every process that reported one not older than five interval lengths; in between, besides, at most what the answers taken since the purge listed; and at most what the answers since the last recalculation listed waits for recalculation.", "quantifier": "all sequences of responses, purges and recalculations, all orders of the maps", "why_tests_cant": "a leak shows after days, and only with clocks or time zones that tests do not have", "anchors": ["healthd/healthd.go: consumePollResponse, purge, recalculateIntervals"]}
{"id": "C131", "title": "A goroutine's call is on the screen sooner or later", "statement": "In every fair execution of a process's goroutines and sinks, of healthd polling it and of healthtop, every call on a stream with a polling sink is taken by the sink; healthd takes answers given after that again and again; and from some time after each of them that lists the interval, until the interval is purged, healthtop's table has a line for the job of the call (if there is room).", "quantifier": "all programs of goroutines and sinks, all executions without end of the process, healthd and healthtop that are fair, polls of the process that succeed from some time on, legible pages", "why_tests_cant": "liveness of the whole system: a call, the queue of the sink, aggregation, page, poll, queue, debouncer, recalculation, page, request, decoding, table", "anchors": ["health.go: Event, Timing, Complete", "json_polling_sink.go: Emit*, GetMetrics", "aggregator.go: startAggregator", "healthd/healthd.go: pollAndAggregate, recalculateIntervals", "cmd/healthtop/jobs.go: jobsLoop, printJobs"]}
{"id": "C132", "title": "Stopping a sink ends its goroutines", "statement": "When a sink's Stop or ShutdownServer has returned, the goroutines the sink started have ended or end sooner or later.", "quantifier": "all executions without end of the StatsD sink with its ticker, the polling, Librato and Bugsnag sinks, fair ones", "why_tests_cant": "a leaked goroutine shows in no test", "anchors": ["statsd_sink.go: loop, Stop", "json_polling_sink.go: ShutdownServer", "aggregator.go: startAggregator", "sinks/librato/sink.go: start, Stop", "sinks/bugsnag/sink.go: errorProcessingLoop, ShutdownServer"]}
{"id": "C133", "title": "Every emission appears once in every log", "statement": "Every emission that does not panic makes every attached WriterSink write one line and every attached JsonWriterSink one object with the job, event, error text, value, time or status of the call and the key/values of call over job over stream; other calls write nothing; the Writes of an execution are exactly those of the calls made to the sinks, in order.", "quantifier": "all histories of API calls with panics recovered, all lists of sinks, clocks and map enumerations", "why_tests_cant": "unbounded histories, aliased maps and wrapped errors", "anchors": ["health.go: Event, EventKv, EventErr, EventErrKv, Timing, TimingKv, Gauge, GaugeKv, Complete, CompleteKv", "writer_sink.go", "json_writer_sink.go", "error.go: Error"]}
{"id": "C134", "title": "Reporting never panics in the caller", "statement": "No call of an emitting method panics in the goroutine that makes it, whatever error it is given.", "quantifier": "all histories, errors and lists of sinks", "why_tests_cant": "depends on the dynamic type inside chains of wrapped errors and on which sinks are attached", "anchors": ["writer_sink.go: EmitEventErr", "error.go: MutedError.Error, UnmutedError.Error", "json_writer_sink.go: EmitEventErr"]}
{"id": "C135", "title": "A sink's trouble with an emission stays its own", "statement": "When one sink cannot handle an emission, the other sinks of the stream are told nevertheless; inside Run, a panic is reported to all sinks and Run returns.", "quantifier": "all histories, lists of sinks and functions given to Run", "why_tests_cant": "depends on the order in which sinks were attached and on what is recovered where", "anchors": ["health.go: EventErr, EventErrKv, Run", "writer_sink.go: EmitEventErr"]}
{"id": "C136", "title": "Whatever the clock does, the sink shows its latest visits", "statement": "Cut the history where the interval of the clock changes: GetMetrics shows the latest of these visits, as many as are retained, in order, each with the counts, gauges, errors, timers and jobs of exactly the commands processed during it; no event is lost until more visits were made than are retained.", "quantifier": "all histories with arbitrary clocks, all intervals and retentions", "why_tests_cant": "wall clocks that step back are not exercised by tests", "anchors": ["aggregator.go: getIntervalAggregation, createIntervalAggregation, memorySafeIntervals", "interval_aggregation.go"]}
{"id": "C137", "title": "A process whose clock stepped back loses nothing in healthd", "statement": "What healthd publishes of an interval has everything the processes emitted in it according to their own clocks, also when a clock stepped back.", "quantifier": "all histories with arbitrary clocks, all states of healthd", "why_tests_cant": "needs a clock that steps back over an interval boundary and a whole aggregation pipeline", "anchors": ["aggregator.go: getIntervalAggregation", "healthd/healthd.go: consumePollResponse", "healthd/poll.go: poll"]}
