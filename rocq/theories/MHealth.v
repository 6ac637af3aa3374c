(** * Model of streams, jobs, key/values and error wrapping
      (health.go, error.go)

    Streams, jobs, key/value maps and error objects live on a heap, so that
    aliasing is visible.  A sink is a number; calling one of its methods
    appends a record to [w_log] together with what the sink could see at that
    moment.  Sinks are assumed to return and not to edit what they are given;
    none of the repository's sinks does. *)
From Verif Require Export MAgg.

(** ** Heap objects *)

(** A Go [error] interface value: nil, a user-defined error (identity and
    text), or a pointer to one of health's two wrapper types (error.go:7-15) *)
Inductive errv :=
  | ENil
  | EUser (id : nat) (text : string)
  | EMuted (l : nat)
  | EUnmuted (l : nat).
#[global] Instance errv_eq_dec : EqDecision errv.
Proof. solve_decision. Defined.

(** error.go:7-15 [MutedError], [UnmutedError]; a stack.Trace is the list of
    its program counters *)
Inductive eobj :=
  | OMuted (e : errv)
  | OUnmuted (e : errv) (stack : list N) (emitted : bool).
#[global] Instance eobj_eq_dec : EqDecision eobj.
Proof. solve_decision. Defined.

(** health.go:25-29 [Stream] (the embedded job is a job like any other) *)
Record stream := Stream { st_sinks : list nat; st_kvs : option nat }.
(** health.go:31-36 [Job] *)
Record job := Job { jb_stream : nat; jb_name : string; jb_kvs : option nat; jb_start : Z }.

(** ** Calls received by sinks (health.go:60-66) *)
Inductive payload :=
  | PEvent (event : string)
  | PEventErr (event : string) (e : errv) (emitted : bool)  (* the flag the sink sees *)
  | PTiming (event : string) (nanos : Z)
  | PGauge (event : string) (v : f64)
  | PComplete (status nanos : Z).
Record call := Call {
  c_sink : nat; c_job : string; c_what : payload;
  c_kvs : option nat;                 (* the map it was given; None is nil *)
  c_view : gmap string string }.      (* that map's contents at the time *)

(** ** World *)
Record world := World {
  w_next : nat;                                (* next unused address *)
  w_maps : gmap nat (gmap string string);
  w_errs : gmap nat eobj;
  w_streams : gmap nat stream;
  w_jobs : gmap nat job;
  w_mine : list nat;                           (* maps the application holds itself *)
  w_clock : nat → Z;                           (* successive readings of the clock *)
  w_ticks : nat;                               (* readings taken so far *)
  w_log : list call }.

Definition set_log (w : world) l := World (w_next w) (w_maps w) (w_errs w) (w_streams w) (w_jobs w) (w_mine w) (w_clock w) (w_ticks w) l.
Definition set_maps (w : world) m := World (w_next w) m (w_errs w) (w_streams w) (w_jobs w) (w_mine w) (w_clock w) (w_ticks w) (w_log w).
Definition set_errs (w : world) e := World (w_next w) (w_maps w) e (w_streams w) (w_jobs w) (w_mine w) (w_clock w) (w_ticks w) (w_log w).
Definition set_streams (w : world) s := World (w_next w) (w_maps w) (w_errs w) s (w_jobs w) (w_mine w) (w_clock w) (w_ticks w) (w_log w).
Definition set_jobs (w : world) j := World (w_next w) (w_maps w) (w_errs w) (w_streams w) j (w_mine w) (w_clock w) (w_ticks w) (w_log w).
Definition set_mine (w : world) m := World (w_next w) (w_maps w) (w_errs w) (w_streams w) (w_jobs w) m (w_clock w) (w_ticks w) (w_log w).
Definition bump (w : world) := World (S (w_next w)) (w_maps w) (w_errs w) (w_streams w) (w_jobs w) (w_mine w) (w_clock w) (w_ticks w) (w_log w).
(** [time.Now()] *)
Definition now (w : world) : world * Z :=
  (World (w_next w) (w_maps w) (w_errs w) (w_streams w) (w_jobs w) (w_mine w) (w_clock w) (S (w_ticks w)) (w_log w),
   w_clock w (w_ticks w)).

Definition world0 (clock : nat → Z) : world := World 0 ∅ ∅ ∅ ∅ [] clock 0 [].

(** contents of a map variable; a nil map reads as empty *)
Definition kvs (w : world) (r : option nat) : gmap string string :=
  match r with None => ∅ | Some l => default ∅ (w_maps w !! l) end.

(** [make(map[string]string)] with contents *)
Definition new_map (w : world) (m : gmap string string) : world * nat :=
  (bump (set_maps w (<[w_next w := m]> (w_maps w))), w_next w).

(** time.Time.Sub: the difference, saturating (health.go:172,179) *)
Definition sub_sat (a b : Z) : Z := Z.max (- 2 ^ 63) (Z.min (2 ^ 63 - 1) (a - b)).

Definition nil_deref {A} : res A := Crash "nil pointer dereference".

(** ** Streams and jobs *)

(** health.go:87-93 [NewJob] *)
Definition new_job (w : world) (s : nat) (name : string) : world * nat :=
  let '(w, t) := now w in
  (bump (set_jobs w (<[w_next w := Job s name None t]> (w_jobs w))), w_next w).

(** health.go:68-72 [NewStream]; returns the stream and its embedded job *)
Definition new_stream (w : world) : world * nat * nat :=
  let s := w_next w in
  let w := bump (set_streams w (<[s := Stream [] None]> (w_streams w))) in
  let '(w, j) := new_job w s "general" in (w, s, j).

(** health.go:74-77 [AddSink] *)
Definition add_sink (w : world) (s k : nat) : res world :=
  match w_streams w !! s with
  | Some st => Ok (set_streams w (<[s := Stream (st_sinks st ++ [k]) (st_kvs st)]> (w_streams w)))
  | None => nil_deref
  end.

(** [m[key] = value] on an allocated map *)
Definition map_set (w : world) (l : nat) (key value : string) : world :=
  set_maps w (<[l := <[key := value]> (kvs w (Some l))]> (w_maps w)).

(** health.go:79-85 [Stream.KeyValue] *)
Definition stream_key_value (w : world) (s : nat) (key value : string) : res world :=
  match w_streams w !! s with
  | Some st =>
      match st_kvs st with
      | Some l => Ok (map_set w l key value)
      | None =>
          let '(w, l) := new_map w ∅ in
          let w := set_streams w (<[s := Stream (st_sinks st) (Some l)]> (w_streams w)) in
          Ok (map_set w l key value)
      end
  | None => nil_deref
  end.

(** health.go:95-101 [Job.KeyValue] *)
Definition job_key_value (w : world) (j : nat) (key value : string) : res world :=
  match w_jobs w !! j with
  | Some jb =>
      match jb_kvs jb with
      | Some l => Ok (map_set w l key value)
      | None =>
          let '(w, l) := new_map w ∅ in
          let w := set_jobs w (<[j := Job (jb_stream jb) (jb_name jb) (Some l) (jb_start jb)]> (w_jobs w)) in
          Ok (map_set w l key value)
      end
  | None => nil_deref
  end.

(** ** Merging key/values *)

(** health.go:203-212: the copying branch; each [range] takes the enumeration
    it happened to see *)
Definition merge_loops (ls lj li : list (string * string)) : gmap string string :=
  let put := λ k v m, <[k := v]> m in
  range li put (range lj put (range ls put ∅)).

(** health.go:183-216 [mergedKeyValues] with the three enumerations as
    arguments *)
Definition merged_key_values_ord (w : world) (st : stream) (jb : job) (inst : option nat)
    (ls lj li : list (string * string)) : world * option nat :=
  let '(count, all) := (0, None) in
  let '(count, all) := if bool_decide (kvs w (jb_kvs jb) ≠ ∅) then (count + 1, jb_kvs jb) else (count, all) in
  let '(count, all) := if bool_decide (kvs w (st_kvs st) ≠ ∅) then (count + 1, st_kvs st) else (count, all) in
  let '(count, all) := if bool_decide (kvs w inst ≠ ∅) then (count + 1, inst) else (count, all) in
  if 1 <? count then
    let '(w, l) := new_map w (merge_loops ls lj li) in (w, Some l)
  else (w, all).

Definition merged_key_values (w : world) (st : stream) (jb : job) (inst : option nat) : world * option nat :=
  merged_key_values_ord w st jb inst
    (map_to_list (kvs w (st_kvs st))) (map_to_list (kvs w (jb_kvs jb))) (map_to_list (kvs w inst)).

(** ** Emission *)

(** one call of a sink's method *)
Definition sink_call (w : world) (k : nat) (jb : job) (p : payload) (all : option nat) : world :=
  set_log w (w_log w ++ [Call k (jb_name jb) p all (kvs w all)]).

(** the loops "for _, sink := range j.Stream.Sinks" *)
Definition for_sinks (w : world) (ks : list nat) (body : world → nat → world) : world :=
  fold_left body ks w.

(** prologue shared by the emitting methods: dereference job and stream, merge
    the key/values *)
Definition with_job_kvs {A} (w : world) (j : nat) (inst : option nat)
    (k : world → stream → job → option nat → A) : res A :=
  match w_jobs w !! j with
  | Some jb =>
      match w_streams w !! jb_stream jb with
      | Some st => let '(w, all) := merged_key_values w st jb inst in Ok (k w st jb all)
      | None => nil_deref
      end
  | None => nil_deref
  end.

(** health.go:103-108 [Event] *)
Definition job_event (w : world) (j : nat) (event : string) : res world :=
  with_job_kvs w j None (λ w st jb all,
    for_sinks w (st_sinks st) (λ w k, sink_call w k jb (PEvent event) all)).
(** health.go:110-115 [EventKv] *)
Definition job_event_kv (w : world) (j : nat) (event : string) (inst : option nat) : res world :=
  with_job_kvs w j inst (λ w st jb all,
    for_sinks w (st_sinks st) (λ w k, sink_call w k jb (PEvent event) all)).

(** the Emitted flag visible through an error value *)
Definition emitted (w : world) (e : errv) : bool :=
  match e with
  | EUnmuted l => match w_errs w !! l with Some (OUnmuted _ _ b) => b | _ => false end
  | _ => false
  end.

(** error.go:29-36 [wrapErr]; [stack] is what stack.NewTrace(2) captures *)
Definition wrap_err (w : world) (e : errv) (stack : list N) : world * errv :=
  match e with
  | EMuted _ | EUnmuted _ => (w, e)
  | _ => (bump (set_errs w (<[w_next w := OUnmuted e stack false]> (w_errs w))), EUnmuted (w_next w))
  end.

(** error.go:25-27 [Mute] *)
Definition mute (w : world) (e : errv) : world * errv :=
  (bump (set_errs w (<[w_next w := OMuted e]> (w_errs w))), EMuted (w_next w)).

(** health.go:123-125, 135-137: [err.Emitted = true] when it is an unmuted
    error *)
Definition mark_emitted (w : world) (e : errv) : world :=
  match e with
  | EUnmuted l =>
      match w_errs w !! l with
      | Some (OUnmuted x s _) => set_errs w (<[l := OUnmuted x s true]> (w_errs w))
      | _ => w
      end
  | _ => w
  end.

(** health.go:117-127 [EventErr] *)
Definition job_event_err (w : world) (j : nat) (event : string) (e : errv) (stack : list N) : res (world * errv) :=
  let '(w, e) := wrap_err w e stack in
  with_job_kvs w j None (λ w st jb all,
    let w := for_sinks w (st_sinks st) (λ w k, sink_call w k jb (PEventErr event e (emitted w e)) all) in
    (mark_emitted w e, e)).
(** health.go:129-139 [EventErrKv] *)
Definition job_event_err_kv (w : world) (j : nat) (event : string) (e : errv) (inst : option nat) (stack : list N)
    : res (world * errv) :=
  let '(w, e) := wrap_err w e stack in
  with_job_kvs w j inst (λ w st jb all,
    let w := for_sinks w (st_sinks st) (λ w k, sink_call w k jb (PEventErr event e (emitted w e)) all) in
    (mark_emitted w e, e)).

(** health.go:141-146 [Timing] *)
Definition job_timing (w : world) (j : nat) (event : string) (n : Z) : res world :=
  with_job_kvs w j None (λ w st jb all,
    for_sinks w (st_sinks st) (λ w k, sink_call w k jb (PTiming event n) all)).
(** health.go:148-153 [TimingKv] *)
Definition job_timing_kv (w : world) (j : nat) (event : string) (n : Z) (inst : option nat) : res world :=
  with_job_kvs w j inst (λ w st jb all,
    for_sinks w (st_sinks st) (λ w k, sink_call w k jb (PTiming event n) all)).
(** health.go:155-160 [Gauge] *)
Definition job_gauge (w : world) (j : nat) (event : string) (v : f64) : res world :=
  with_job_kvs w j None (λ w st jb all,
    for_sinks w (st_sinks st) (λ w k, sink_call w k jb (PGauge event v) all)).
(** health.go:162-167 [GaugeKv] *)
Definition job_gauge_kv (w : world) (j : nat) (event : string) (v : f64) (inst : option nat) : res world :=
  with_job_kvs w j inst (λ w st jb all,
    for_sinks w (st_sinks st) (λ w k, sink_call w k jb (PGauge event v) all)).
(** health.go:169-174 [Complete]: the clock is read once per sink *)
Definition job_complete (w : world) (j : nat) (status : Z) : res world :=
  with_job_kvs w j None (λ w st jb all,
    for_sinks w (st_sinks st) (λ w k,
      let '(w, t) := now w in sink_call w k jb (PComplete status (sub_sat t (jb_start jb))) all)).
(** health.go:176-181 [CompleteKv] *)
Definition job_complete_kv (w : world) (j : nat) (status : Z) (inst : option nat) : res world :=
  with_job_kvs w j inst (λ w st jb all,
    for_sinks w (st_sinks st) (λ w k,
      let '(w, t) := now w in sink_call w k jb (PComplete status (sub_sat t (jb_start jb))) all)).

(** ** Run *)

(** How the function given to Run ends: it returns, panics with a value whose
    fmt.Sprint text is [text], panics with nil (before Go 1.21 recover then
    returns nil), or ends its goroutine with runtime.Goexit. *)
Inductive outcome := ORet (e : errv) | OPanic (text : string) | OPanicNil | OGoexit.

(** What Run does: returns an error value, or never returns because the
    goroutine ends *)
Inductive ran := Returned (e : errv) | GoroutineEnded.

(** health.go:223-245 [Job.Run].  [f] is an arbitrary state transformer;
    [eid] is the identity of the error made by errors.New, [stacktext] the text
    of runtime.Stack, [stack] the trace captured by wrapErr. *)
Definition job_run (w : world) (j : nat) (f : world → world * outcome)
    (eid : nat) (stacktext : string) (stack : list N) : res (world * ran) :=
  let '(w, o) := f w in
  match o with
  | ORet e =>
      if bool_decide (e ≠ ENil)
      then w ←r job_complete w j Error; Ok (w, Returned e)
      else w ←r job_complete w j Success; Ok (w, Returned e)
  | OPanic text =>
      let err := EUser eid text in
      let '(w, inst) := new_map w {[ "stack" := stacktext ]} in
      r ←r job_event_err_kv w j "panic" err (Some inst) stack;
      w ←r job_complete r.1 j Panic;
      Ok (w, Returned err)
  | OPanicNil => Ok (w, Returned ENil)
  | OGoexit => Ok (w, GoroutineEnded)
  end.

(** health.go:218-221 [Stream.Run] *)
Definition stream_run (w : world) (s : nat) (name : string) (f : world → world * outcome)
    (eid : nat) (stacktext : string) (stack : list N) : res (world * ran) :=
  let '(w, j) := new_job w s name in job_run w j f eid stacktext stack.

(** ** The application: any sequence of API calls.  The application can make
    maps and edit the maps it made, and mute errors. *)
Inductive api :=
  | ApiNewStream
  | ApiAddSink (s k : nat)
  | ApiStreamKv (s : nat) (key value : string)
  | ApiNewJob (s : nat) (name : string)
  | ApiJobKv (j : nat) (key value : string)
  | ApiNewMap
  | ApiMapSet (l : nat) (key value : string)
  | ApiMute (e : errv)
  | ApiEvent (j : nat) (event : string)
  | ApiEventKv (j : nat) (event : string) (inst : option nat)
  | ApiEventErr (j : nat) (event : string) (e : errv) (stack : list N)
  | ApiEventErrKv (j : nat) (event : string) (e : errv) (inst : option nat) (stack : list N)
  | ApiTiming (j : nat) (event : string) (n : Z)
  | ApiTimingKv (j : nat) (event : string) (n : Z) (inst : option nat)
  | ApiGauge (j : nat) (event : string) (v : f64)
  | ApiGaugeKv (j : nat) (event : string) (v : f64) (inst : option nat)
  | ApiComplete (j : nat) (status : Z)
  | ApiCompleteKv (j : nat) (status : Z) (inst : option nat).

Definition api_step (w : world) (a : api) : res world :=
  match a with
  | ApiNewStream => Ok (new_stream w).1.1
  | ApiAddSink s k => add_sink w s k
  | ApiStreamKv s k v => stream_key_value w s k v
  | ApiNewJob s n => Ok (new_job w s n).1
  | ApiJobKv j k v => job_key_value w j k v
  | ApiNewMap => let '(w, l) := new_map w ∅ in Ok (set_mine w (l :: w_mine w))
  | ApiMapSet l k v => if bool_decide (l ∈ w_mine w) then Ok (map_set w l k v) else Ok w
  | ApiMute e => Ok (mute w e).1
  | ApiEvent j e => job_event w j e
  | ApiEventKv j e i => job_event_kv w j e i
  | ApiEventErr j e x s => r ←r job_event_err w j e x s; Ok r.1
  | ApiEventErrKv j e x i s => r ←r job_event_err_kv w j e x i s; Ok r.1
  | ApiTiming j e n => job_timing w j e n
  | ApiTimingKv j e n i => job_timing_kv w j e n i
  | ApiGauge j e v => job_gauge w j e v
  | ApiGaugeKv j e v i => job_gauge_kv w j e v i
  | ApiComplete j s => job_complete w j s
  | ApiCompleteKv j s i => job_complete_kv w j s i
  end.

Fixpoint api_run (w : world) (l : list api) : res world :=
  match l with [] => Ok w | a :: l' => w ←r api_step w a; api_run w l' end.
