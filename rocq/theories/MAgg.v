(** * Model of the in-process aggregator (aggregator.go, interval_aggregation.go)

    Values only: pointers are replaced by the values they point to.  The
    pointer-level model is in MHeap.v and is related to this one there. *)
From Verif Require Export Base.

(** An [error] value, identified with what [reflect.DeepEqual] sees: its text
    and the program counters of the captured stack.  (Simplification: deep
    equality is equality of these two fields; MErrors.v has the others.)  [None] is a nil error. *)
Record err := Err { err_text : string; err_stack : list N }.
#[global] Instance err_eq_dec : EqDecision err.
Proof. solve_decision. Defined.

(** interval_aggregation.go:43-49 [TimerAggregation] *)
Record timer := Timer {
  t_count : Z; t_sum : Z; t_ss : f64; t_min : Z; t_max : Z }.

(** interval_aggregation.go:51-57 [ErrorCounter]; the array [5]error is a list
    of length five. *)
Record errc := Errc { ec_count : Z; ec_samples : list (option err); ec_index : nat }.

(** interval_aggregation.go:25-30 [aggregationMaps] *)
Record amaps := AMaps {
  am_timers : gmap string timer;
  am_gauges : gmap string f64;
  am_events : gmap string Z;
  am_errs   : gmap string errc }.

(** interval_aggregation.go:32-41 [JobAggregation] *)
Record jobagg := JobAgg {
  j_maps : amaps;
  j_timer : timer;
  j_success : Z; j_verror : Z; j_panic : Z; j_error : Z; j_junk : Z }.

(** interval_aggregation.go:9-23 [IntervalAggregation]; the time is in
    nanoseconds since Go's zero time. *)
Record ia := IA {
  ia_start : Z;
  ia_serial : Z;
  ia_jobs : gmap string jobagg;
  ia_maps : amaps }.

(** interval_aggregation.go:88,85 [&TimerAggregation{}], [&ErrorCounter{}] *)
Definition timer0 : timer := Timer 0 0 f0 0 0.
Definition errc0 : errc := Errc 0 [None; None; None; None; None] 0.

(** interval_aggregation.go:69-74 [initAggregationMaps] *)
Definition amaps0 : amaps := AMaps ∅ ∅ ∅ ∅.

(** interval_aggregation.go:132-133 [&JobAggregation{}] + init *)
Definition job0 : jobagg := JobAgg amaps0 timer0 0 0 0 0 0.

(** interval_aggregation.go:59-67 [NewIntervalAggregation] *)
Definition new_ia (start : Z) : ia := IA start 0 ∅ amaps0.

(** interval_aggregation.go:139-150 [TimerAggregation.ingest] *)
Definition timer_ingest (a : timer) (nanos : Z) : timer :=
  let c := w64 (t_count a + 1) in
  let s := w64 (t_sum a + nanos) in
  let fl := fofZ nanos in
  let ss := fadd (t_ss a) (fmul fl fl) in
  let mn := if (c =? 1) || (nanos <? t_min a) then nanos else t_min a in
  let mx := if (c =? 1) || (t_max a <? nanos) then nanos else t_max a in
  Timer c s ss mn mx.

(** health.go:38-46 [CompletionStatus]: an int; the five named constants. *)
Definition Success : Z := 0.
Definition ValidationError : Z := 1.
Definition Panic : Z := 2.
Definition Error : Z := 3.
Definition Junk : Z := 4.

(** health.go:48-58 [CompletionStatus.String]: map lookup, "" when absent *)
Definition status_string (st : Z) : string :=
  if st =? Success then "success"
  else if st =? ValidationError then "validation_error"
  else if st =? Panic then "panic"
  else if st =? Error then "error"
  else if st =? Junk then "junk"
  else "".

(** interval_aggregation.go:152-165 [JobAggregation.ingest] *)
Definition job_ingest (j : jobagg) (st nanos : Z) : jobagg :=
  let t := timer_ingest (j_timer j) nanos in
  if st =? Success then
    JobAgg (j_maps j) t (w64 (j_success j + 1)) (j_verror j) (j_panic j) (j_error j) (j_junk j)
  else if st =? ValidationError then
    JobAgg (j_maps j) t (j_success j) (w64 (j_verror j + 1)) (j_panic j) (j_error j) (j_junk j)
  else if st =? Panic then
    JobAgg (j_maps j) t (j_success j) (j_verror j) (w64 (j_panic j + 1)) (j_error j) (j_junk j)
  else if st =? Error then
    JobAgg (j_maps j) t (j_success j) (j_verror j) (j_panic j) (w64 (j_error j + 1)) (j_junk j)
  else if st =? Junk then
    JobAgg (j_maps j) t (j_success j) (j_verror j) (j_panic j) (j_error j) (w64 (j_junk j + 1))
  else
    JobAgg (j_maps j) t (j_success j) (j_verror j) (j_panic j) (j_error j) (j_junk j).

(** interval_aggregation.go:99-108 [ErrorCounter.addError]; the array index is
    always in bounds, an out-of-range read is modelled as nil. *)
Definition add_error (ec : errc) (e : option err) : errc :=
  match ec_samples ec !! ec_index ec with
  | Some (Some last) =>
      if bool_decide (Some last = e) then ec
      else
        let i := Nat.modulo (ec_index ec + 1) (length (ec_samples ec)) in
        Errc (ec_count ec) (<[i := e]> (ec_samples ec)) i
  | _ => Errc (ec_count ec) (<[ec_index ec := e]> (ec_samples ec)) (ec_index ec)
  end.

(** interval_aggregation.go:94-97 [incrementAndAddError] *)
Definition increment_and_add_error (ec : errc) (e : option err) : errc :=
  add_error (Errc (w64 (ec_count ec + 1)) (ec_samples ec) (ec_index ec)) e.

(** interval_aggregation.go:110-127 [getErrorSamples] *)
Definition get_error_samples (ec : errc) : list err := omap id (ec_samples ec).

(** aggregator.go:83,85 [Events[event] = Events[event] + 1] *)
Definition am_inc_event (am : amaps) (event : string) : amaps :=
  AMaps (am_timers am) (am_gauges am)
    (<[event := w64 (mget (am_events am) event 0 + 1)]> (am_events am)) (am_errs am).

(** interval_aggregation.go:76-83 [getCounterErrs] followed by
    [incrementAndAddError] on the returned pointer (aggregator.go:91-92,94-95) *)
Definition am_add_err (am : amaps) (event : string) (e : option err) : amaps :=
  AMaps (am_timers am) (am_gauges am) (am_events am)
    (<[event := increment_and_add_error (mget (am_errs am) event errc0) e]> (am_errs am)).

(** interval_aggregation.go:85-92 [getTimers] followed by [ingest] on the
    returned pointer (aggregator.go:101-102,104-105) *)
Definition am_add_timing (am : amaps) (event : string) (nanos : Z) : amaps :=
  AMaps (<[event := timer_ingest (mget (am_timers am) event timer0) nanos]> (am_timers am))
    (am_gauges am) (am_events am) (am_errs am).

(** aggregator.go:111,113 [Gauges[event] = value] *)
Definition am_set_gauge (am : amaps) (event : string) (v : f64) : amaps :=
  AMaps (am_timers am) (<[event := v]> (am_gauges am)) (am_events am) (am_errs am).

(** interval_aggregation.go:129-137 [getJobAggregation] followed by a mutation
    through the returned pointer *)
Definition with_job (a : ia) (job : string) (f : jobagg → jobagg) : ia :=
  IA (ia_start a) (ia_serial a)
     (<[job := f (mget (ia_jobs a) job job0)]> (ia_jobs a)) (ia_maps a).

Definition job_on_maps (f : amaps → amaps) (j : jobagg) : jobagg :=
  JobAgg (f (j_maps j)) (j_timer j) (j_success j) (j_verror j) (j_panic j) (j_error j) (j_junk j).
Definition ia_on_maps (f : amaps → amaps) (a : ia) : ia :=
  IA (ia_start a) (ia_serial a) (ia_jobs a) (f (ia_maps a)).
(** [intAgg.SerialNumber++] *)
Definition ia_bump (a : ia) : ia :=
  IA (ia_start a) (w64 (ia_serial a + 1)) (ia_jobs a) (ia_maps a).

(** json_polling_sink.go:25-33 [emitCmd] *)
Inductive cmd :=
  | CEvent (job event : string)
  | CEventErr (job event : string) (e : option err)
  | CTiming (job event : string) (nanos : Z)
  | CGauge (job event : string) (value : f64)
  | CComplete (job : string) (status nanos : Z).

(** aggregator.go:81-122: what each Emit method does to the current interval *)
Definition ia_apply (a : ia) (c : cmd) : ia :=
  match c with
  | CEvent job event =>                                     (* 81-87 *)
      let a := ia_on_maps (λ m, am_inc_event m event) a in
      let a := with_job a job (job_on_maps (λ m, am_inc_event m event)) in
      ia_bump a
  | CEventErr job event e =>                                (* 89-97 *)
      let a := ia_on_maps (λ m, am_add_err m event e) a in
      let a := with_job a job (job_on_maps (λ m, am_add_err m event e)) in
      ia_bump a
  | CTiming job event nanos =>                              (* 99-107 *)
      let a := ia_on_maps (λ m, am_add_timing m event nanos) a in
      let a := with_job a job (job_on_maps (λ m, am_add_timing m event nanos)) in
      ia_bump a
  | CGauge job event v =>                                   (* 109-115 *)
      let a := ia_on_maps (λ m, am_set_gauge m event v) a in
      let a := with_job a job (job_on_maps (λ m, am_set_gauge m event v)) in
      ia_bump a
  | CComplete job st nanos =>                               (* 117-122 *)
      let a := with_job a job (λ j, job_ingest j st nanos) in
      ia_bump a
  end.

(** aggregator.go:7-20 [aggregator] *)
Record aggr := Aggr { a_dur : Z; a_retain : Z; a_max : Z; a_ints : list ia }.

(** aggregator.go:56-64 [newAggregator].  [retain / intervalDuration] panics on
    zero; [make] panics on a negative capacity.  (Memory exhaustion for huge
    capacities is not modelled.) *)
Definition new_aggregator (dur retain : Z) : res aggr :=
  if dur =? 0 then Crash "integer divide by zero"
  else
    let mx := Z.quot retain dur in
    if mx <? 0 then Crash "makeslice: cap out of range"
    else Ok (Aggr dur retain mx []).

(** time.Time.Truncate (aggregator.go:125): round down to a multiple of d since
    the zero time; d <= 0 leaves the time unchanged. *)
Definition truncate (d t : Z) : Z := if d <=? 0 then t else t - t `mod` d.

(** aggregator.go:142-144: for i := 1; i < n; i++ { a[i-1] = a[i] } *)
Definition shift_down {A} (l : list A) : list A :=
  fold_left (λ acc i, match acc !! i with Some x => <[(i - 1)%nat := x]> acc | None => acc end)
            (seq 1 (length l - 1)) l.

(** aggregator.go:135-151 [createIntervalAggregation]; the write at n-1 panics
    when n = 0. *)
Definition create_interval (a : aggr) (start : Z) : res aggr :=
  let cur := new_ia start in
  let n := length (a_ints a) in
  if Z.of_nat n =? a_max a then
    if Nat.eqb n 0 then Crash "index out of range [-1]"
    else Ok (Aggr (a_dur a) (a_retain a) (a_max a) (<[(n - 1)%nat := cur]> (shift_down (a_ints a))))
  else Ok (Aggr (a_dur a) (a_retain a) (a_max a) (a_ints a ++ [cur])).

(** aggregator.go:124-133 [getIntervalAggregation]: afterwards the current
    interval is the last one of the slice. *)
Definition get_interval (a : aggr) (now : Z) : res aggr :=
  let start := truncate (a_dur a) now in
  match last (a_ints a) with
  | Some i => if ia_start i =? start then Ok a else create_interval a start
  | None => create_interval a start
  end.

(** mutation of the last element through the pointer getIntervalAggregation
    returned *)
Definition on_last (f : ia → ia) (l : list ia) : list ia :=
  match last l with
  | Some i => <[(length l - 1)%nat := f i]> l
  | None => l
  end.

(** The steps of the aggregator goroutine, aggregator.go:31-52: a command, a
    tick of the one-second ticker, or a request for the metrics. *)
Inductive aop := OpCmd (c : cmd) | OpTick | OpRead.

(** aggregator.go:66-79 [memorySafeIntervals], on values: a copy of every
    retained interval after making the current one exist. *)
Definition memory_safe_intervals (a : aggr) (now : Z) : res (aggr * list ia) :=
  a ←r get_interval a now; Ok (a, a_ints a).

(** aggregator.go:36-51: one iteration of the loop *)
Definition agg_step (a : aggr) (now : Z) (o : aop) : res (aggr * option (list ia)) :=
  match o with
  | OpCmd c =>
      a ←r get_interval a now;
      Ok (Aggr (a_dur a) (a_retain a) (a_max a) (on_last (λ i, ia_apply i c) (a_ints a)), None)
  | OpTick => a ←r get_interval a now; Ok (a, None)
  | OpRead => r ←r memory_safe_intervals a now; Ok (r.1, Some r.2)
  end.

(** the loop over a history of (clock reading, operation) *)
Fixpoint agg_run (a : aggr) (h : list (Z * aop)) : res aggr :=
  match h with
  | [] => Ok a
  | (t, o) :: h' => r ←r agg_step a t o; agg_run r.1 h'
  end.
