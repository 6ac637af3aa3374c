(** * Model of a stream whose sinks write logs: the emitting methods of health.go
      with the WriterSink and the JsonWriterSink called in the caller's goroutine

    MHealth.v records that a sink was called and assumes that it returns.  Here
    the two sinks that read the text of an error in the caller's goroutine run
    to the end of their method, and one of them can panic: writer_sink.go:46
    calls Error() on the error it is given.  A panic leaves the loop over the
    sinks, and the emitting method, at once; the application may recover it. *)
From Verif Require Export MHealth MWire.

(** The sinks of this chapter.  [SkQuiet]: any sink that neither reads the text
    of the error nor blocks (StatsD, polling, Librato and Bugsnag sinks queue). *)
Inductive skind := SkWriter | SkJson | SkQuiet.

(** What comes from outside: the kind of each sink, the sorting function and the
    renderings of floats, the text of the clock and the enumeration of a map at
    the n-th call of a sink's method, and what fmt.Sprint writes for a value
    whose Error method panics (fmt recovers it). *)
Record logenv := LogEnv {
  le_kind : nat → skind;
  le_srt : sorting_fn string;
  le_g : f64 → string;
  le_ff : f64 → string;
  le_ts : nat → string;
  le_ord : nat → gmap string string → list string;
  le_panic : string }.

(** error.go:17-23 and the application's own errors: the Error method.  [fuel]
    bounds the depth; [error_text] gives it enough for any chain of objects. *)
Fixpoint error_method (fuel : nat) (w : world) (e : errv) : res string :=
  match fuel with
  | O => Crash "stack overflow"
  | S fuel =>
      match e with
      | ENil => nil_deref
      | EUser _ text => Ok text
      | EMuted l | EUnmuted l =>
          match w_errs w !! l with
          | Some (OMuted x) | Some (OUnmuted x _ _) => error_method fuel w x
          | None => nil_deref
          end
      end
  end.
Definition error_text (w : world) (e : errv) : res string := error_method (S (w_next w)) w e.

(** what a sink is told, in the terms of MWriter.v; [text] is the error's *)
Definition as_emission (p : payload) (text : string) : MWriter.emission :=
  match p with
  | PEvent event => WEvent event
  | PEventErr event _ _ => WEventErr event text
  | PTiming event nanos => WTiming event nanos
  | PGauge event v => WGauge event v
  | PComplete status nanos => WComplete status nanos
  end.

(** the map a sink was given *)
Definition given (c : call) : option (gmap string string) := (λ _, c_view c) <$> c_kvs c.

(** One call of a sink's method, the [n]-th: the bytes it writes, if any.
    writer_sink.go:24-95 reads the text only in EmitEventErr;
    json_writer_sink.go:29-45 uses fmt.Sprint, which survives a panic. *)
Definition handle (env : logenv) (w : world) (n : nat) (c : call) : res (option string) :=
  match le_kind env (c_sink c) with
  | SkQuiet => Ok None
  | SkWriter =>
      text ←r match c_what c with PEventErr _ e _ => error_text w e | _ => Ok "" end;
      Ok (Some (writer_line (le_srt env) (le_g env) (le_ts env n) (c_job c) (as_emission (c_what c) text) (given c)
        (match given c with Some m => le_ord env n m | None => [] end)))
  | SkJson =>
      let text := match c_what c with
                  | PEventErr _ e _ => match error_text w e with Ok t => t | Crash _ => le_panic env end
                  | _ => ""
                  end in
      Ok (compact <$> enc_emission (le_ff env) (le_ts env n) (c_job c) (as_emission (c_what c) text) (given c))
  end.

(** the world, and the Writes made so far: which sink, what *)
Record lstate := LS { ls_w : world; ls_out : list (nat * string) }.

(** "for _, sink := range j.Stream.Sinks": [args] computes the arguments of each
    call (Complete reads the clock).  [true]: a sink panicked. *)
Fixpoint l_loop (env : logenv) (args : world → world * payload) (jb : job) (all : option nat)
    (ks : list nat) (s : lstate) : lstate * bool :=
  match ks with
  | [] => (s, false)
  | k :: ks' =>
      let '(w, p) := args (ls_w s) in
      let c := Call k (jb_name jb) p all (kvs w all) in
      match handle env w (length (w_log w)) c with
      | Ok b => l_loop env args jb all ks'
                  (LS (set_log w (w_log w ++ [c])) (ls_out s ++ match b with Some t => [(k, t)] | None => [] end))
      | Crash _ => (LS w (ls_out s), true)
      end
  end.

(** health.go:103-115,141-167: Event, Timing, Gauge and their Kv forms *)
Definition l_plain (env : logenv) (s : lstate) (j : nat) (inst : option nat) (p : payload) : res (lstate * bool) :=
  with_job_kvs (ls_w s) j inst (λ w st jb all,
    l_loop env (λ w, (w, p)) jb all (st_sinks st) (LS w (ls_out s))).
(** health.go:169-181: Complete and CompleteKv *)
Definition l_complete (env : logenv) (s : lstate) (j : nat) (inst : option nat) (status : Z) : res (lstate * bool) :=
  with_job_kvs (ls_w s) j inst (λ w st jb all,
    l_loop env (λ w, let '(w, t) := now w in (w, PComplete status (sub_sat t (jb_start jb)))) jb all
      (st_sinks st) (LS w (ls_out s))).
(** health.go:117-139: EventErr and EventErrKv; the error is marked, and
    returned, only if no sink panicked *)
Definition l_err (env : logenv) (s : lstate) (j : nat) (inst : option nat) (event : string) (e : errv) (stack : list N)
    : res (lstate * bool) :=
  let '(w, e) := wrap_err (ls_w s) e stack in
  with_job_kvs w j inst (λ w st jb all,
    let '(s, panicked) := l_loop env (λ w, (w, PEventErr event e (emitted w e))) jb all (st_sinks st) (LS w (ls_out s)) in
    if panicked then (s, true) else (LS (mark_emitted (ls_w s) e) (ls_out s), false)).

(** one call of the API: the new state, and whether it panicked *)
Definition l_step (env : logenv) (s : lstate) (a : api) : res (lstate * bool) :=
  match a with
  | ApiEvent j ev => l_plain env s j None (PEvent ev)
  | ApiEventKv j ev i => l_plain env s j i (PEvent ev)
  | ApiEventErr j ev e st => l_err env s j None ev e st
  | ApiEventErrKv j ev e i st => l_err env s j i ev e st
  | ApiTiming j ev n => l_plain env s j None (PTiming ev n)
  | ApiTimingKv j ev n i => l_plain env s j i (PTiming ev n)
  | ApiGauge j ev v => l_plain env s j None (PGauge ev v)
  | ApiGaugeKv j ev v i => l_plain env s j i (PGauge ev v)
  | ApiComplete j st => l_complete env s j None st
  | ApiCompleteKv j st i => l_complete env s j i st
  | _ => w ←r api_step (ls_w s) a; Ok (LS w (ls_out s), false)
  end.

(** the error values an application can hold: those it was given, or made *)
Definition holds (w : world) (e : errv) : Prop :=
  match e with
  | EMuted l => ∃ x, w_errs w !! l = Some (OMuted x)
  | EUnmuted l => ∃ x st b, w_errs w !! l = Some (OUnmuted x st b)
  | _ => True
  end.
Definition api_can (w : world) (a : api) : Prop :=
  match a with ApiMute e | ApiEventErr _ _ e _ | ApiEventErrKv _ _ e _ _ => holds w e | _ => True end.

(** an application that makes calls, and recovers the panics *)
Inductive l_run (env : logenv) : lstate → list (api * bool) → lstate → Prop :=
  | Lr_nil s : l_run env s [] s
  | Lr_step s a b s' tr s'' : api_can (ls_w s) a → l_step env s a = Ok (s', b) → l_run env s' tr s'' →
      l_run env s ((a, b) :: tr) s''.

(** health.go:223-245 [Job.Run] with these sinks: as [job_run]; the calls it makes
    itself may panic too ([None]; with these sinks it never happens: Complete
    reads no error, and the error made for a panic has a text, so what the
    deferred function would do about a panic of Complete is left out) *)
Definition l_job_run (env : logenv) (s : lstate) (j : nat) (f : lstate → lstate * outcome)
    (eid : nat) (stacktext : string) (stack : list N) : res (lstate * option ran) :=
  let '(s, o) := f s in
  match o with
  | ORet e =>
      r ←r l_complete env s j None (if bool_decide (e ≠ ENil) then Error else Success);
      Ok (r.1, if r.2 : bool then None else Some (Returned e))
  | OPanic text =>
      let '(w, inst) := new_map (ls_w s) {[ "stack" := stacktext ]} in
      r ←r l_err env (LS w (ls_out s)) j (Some inst) "panic" (EUser eid text) stack;
      if r.2 : bool then Ok (r.1, None) else
      r ←r l_complete env r.1 j None Panic;
      Ok (r.1, if r.2 : bool then None else Some (Returned (EUser eid text)))
  | OPanicNil => Ok (s, Some (Returned ENil))
  | OGoexit => Ok (s, Some GoroutineEnded)
  end.
