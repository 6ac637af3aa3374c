(** * Model of a process: goroutines that call a stream with several sinks

    health.go:103-181: every emitting method calls the sinks of the stream one
    after the other ([for _, sink := range j.Stream.Sinks]) in the caller's
    goroutine; a sink's method may block.  The sinks are those of MPolling.v,
    MStatsdLoop.v, MLibrato.v and MBugsnag.v, and sinks that never block
    ([KOther], as WriterSink).  Sinks are attached before the calls. *)
From Verif Require Export MLibrato MBugsnag MPolling MStatsdLoop.

Inductive ksink :=
  | KPoll (s : pst)
  | KStatsd (o : opts) (s : lst)
  | KLibrato (c : lconf) (g : lgo)
  | KBugsnag (b : bq)
  | KOther (got : list cmd).

(** a report of an error that is not muted and whose Emitted is not set when the
    sink is called: the error, and the key/values given (sinks/bugsnag/sink.go:45-56) *)
Definition fresh_err : Type := nat * option nat.
(** an emitting call: what it tells the sink at each position (EmitComplete is
    given a new reading of the clock for every sink, health.go:172,179), and
    whether a Bugsnag sink there finds an error not reported before *)
Record scall := SCall { sc_cmd :> nat → cmd; sc_new : nat → option fresh_err }.
(** a goroutine: the position of the sink it calls next, and its calls, the
    first of which is the one it is in *)
Record caller := Caller { cl_at : nat; cl_rest : list scall }.
Record proc := Proc { q_callers : list caller; q_sinks : list ksink }.

Inductive qact :=
  | QEmit (g k : nat) (c : cmd) (e : option fresh_err)  (* the method of sink k returned to goroutine g *)
  | QNext (g : nat)                 (* the loop over the sinks ended, the method returned *)
  | QPoll (k : nat) (a : pact)      (* another step of the polling sink at k *)
  | QStatsd (k : nat) (a : sact)    (* another step of the StatsD sink at k *)
  | QLibrato (k : nat) (a : lact)   (* another step of the Librato sink at k *)
  | QBugsnag (k : nat) (a : bact).  (* another step of the Bugsnag sink at k *)

(** a panic in a polling sink's goroutine ends the process *)
Definition kalive (x : ksink) : Prop := match x with KPoll s => p_alive s | _ => True end.
Definition q_alive (s : proc) : Prop := Forall kalive (q_sinks s).

(** sinks/librato/sink.go:118-136: what the Librato sink queues; it does not look
    at the error *)
Definition lib_cmd (c : cmd) : string * emission :=
  match c with
  | CEvent job event => (job, WEvent event)
  | CEventErr job event _ => (job, WEventErr event "")
  | CTiming job event nanos => (job, WTiming event nanos)
  | CGauge job event value => (job, WGauge event value)
  | CComplete job status nanos => (job, WComplete status nanos)
  end.
(** sinks/bugsnag/sink.go:41-67: what the Bugsnag sink queues *)
Definition bug_cmd (c : cmd) (e : option fresh_err) : option bcmd :=
  match c, e with CEventErr job event _, Some (l, kvs) => Some (BCmd job event l kvs) | _, _ => None end.

(** a sink takes a command *)
Inductive takes_cmd : ksink → cmd → option fresh_err → ksink → Prop :=
  | Tk_poll s c e s' : pstep s (PEmit c) s' → takes_cmd (KPoll s) c e (KPoll s')
  | Tk_statsd o s c e s' : lstep o s (AEmit c) s' → takes_cmd (KStatsd o s) c e (KStatsd o s')
  | Tk_librato lc g c e g' : gostep lc g (GEmit (lib_cmd c).1 (lib_cmd c).2) g' → takes_cmd (KLibrato lc g) c e (KLibrato lc g')
  | Tk_bugsnag b c e x b' : bug_cmd c e = Some x → bstep b (BEnqueue x) b' → takes_cmd (KBugsnag b) c e (KBugsnag b')
  | Tk_unseen b c e : bug_cmd c e = None → takes_cmd (KBugsnag b) c e (KBugsnag b)
  | Tk_other l c e : takes_cmd (KOther l) c e (KOther (l ++ [c])).

Definition not_emit_p (a : pact) : Prop := match a with PEmit _ => False | _ => True end.
Definition not_emit_s (a : sact) : Prop := match a with AEmit _ => False | _ => True end.
Definition not_emit_l (a : lact) : Prop := match a with GEmit _ _ => False | _ => True end.
Definition not_emit_b (a : bact) : Prop := match a with BEnqueue _ => False | _ => True end.

Inductive qstep : proc → qact → proc → Prop :=
  | Qs_emit cs ks g at_ c rest x x' : q_alive (Proc cs ks) →
      cs !! g = Some (Caller at_ (c :: rest)) → ks !! at_ = Some x → takes_cmd x (c at_) (sc_new c at_) x' →
      qstep (Proc cs ks) (QEmit g at_ (c at_) (sc_new c at_)) (Proc (<[g := Caller (S at_) (c :: rest)]> cs) (<[at_ := x']> ks))
  | Qs_next cs ks g c rest : q_alive (Proc cs ks) →
      cs !! g = Some (Caller (length ks) (c :: rest)) →
      qstep (Proc cs ks) (QNext g) (Proc (<[g := Caller 0 rest]> cs) ks)
  | Qs_poll cs ks k a s s' : q_alive (Proc cs ks) →
      ks !! k = Some (KPoll s) → not_emit_p a → pstep s a s' →
      qstep (Proc cs ks) (QPoll k a) (Proc cs (<[k := KPoll s']> ks))
  | Qs_statsd cs ks k a o s s' : q_alive (Proc cs ks) →
      ks !! k = Some (KStatsd o s) → not_emit_s a → lstep o s a s' →
      qstep (Proc cs ks) (QStatsd k a) (Proc cs (<[k := KStatsd o s']> ks))
  | Qs_librato cs ks k a c s s' : q_alive (Proc cs ks) →
      ks !! k = Some (KLibrato c s) → not_emit_l a → gostep c s a s' →
      qstep (Proc cs ks) (QLibrato k a) (Proc cs (<[k := KLibrato c s']> ks))
  | Qs_bugsnag cs ks k a s s' : q_alive (Proc cs ks) →
      ks !! k = Some (KBugsnag s) → not_emit_b a → bstep s a s' →
      qstep (Proc cs ks) (QBugsnag k a) (Proc cs (<[k := KBugsnag s']> ks)).
Inductive qsteps : proc → list qact → proc → Prop :=
  | Qss_nil s : qsteps s [] s
  | Qss_cons s a s' tr s'' : qstep s a s' → qsteps s' tr s'' → qsteps s (a :: tr) s''.

(** new sinks, and goroutines about to make the given calls *)
Inductive new_sink : ksink → Prop :=
  | Fr_poll d retain : new_sink (KPoll (pst0 d retain))
  | Fr_statsd o : new_sink (KStatsd o lst0)
  | Fr_librato c : new_sink (KLibrato c lgo0)
  | Fr_bugsnag : new_sink (KBugsnag bq0)
  | Fr_other : new_sink (KOther []).
Definition proc0 (progs : list (list scall)) (ks : list ksink) : proc := Proc (map (Caller 0) progs) ks.
