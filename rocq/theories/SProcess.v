(** * What sinks should be told by concurrent callers (C105-C107) *)
From Verif Require Export MProcess SPolling SStatsdLoop.

(** what goroutine [g] told the sink at [k], in order *)
Definition heard_by (tr : list qact) (g k : nat) : list (cmd * option fresh_err) :=
  omap (λ a, match a with QEmit g' k' c e => if decide (g' = g ∧ k' = k) then Some (c, e) else None | _ => None end) tr.
Definition told_by (tr : list qact) (g k : nat) : list cmd := map fst (heard_by tr g k).
(** what the sink at [k] was told by all of them, in order *)
Definition heard (tr : list qact) (k : nat) : list (cmd * option fresh_err) :=
  omap (λ a, match a with QEmit _ k' c e => if decide (k' = k) then Some (c, e) else None | _ => None end) tr.
Definition told (tr : list qact) (k : nat) : list cmd := map fst (heard tr k).
(** the calls of [g] that returned *)
Definition returned (tr : list qact) (g : nat) : nat :=
  length (omap (λ a, match a with QNext g' => if decide (g' = g) then Some tt else None | _ => None end) tr).
(** what the calls [prog] tell the sink at [k] *)
Definition tells_sink (k : nat) (prog : list scall) : list cmd := map (λ c : scall, c k) prog.
Definition hears (k : nat) (prog : list scall) : list (cmd * option fresh_err) := map (λ c : scall, (c k, sc_new c k)) prog.
(** the same in the terms of the Librato and Bugsnag sinks: every emission; the
    reports of errors not reported before *)
Definition for_librato (l : list cmd) : list (string * emission) :=
  map (λ c, match c with
            | CEvent job event => (job, WEvent event)
            | CEventErr job event _ => (job, WEventErr event "")
            | CTiming job event nanos => (job, WTiming event nanos)
            | CGauge job event value => (job, WGauge event value)
            | CComplete job status nanos => (job, WComplete status nanos)
            end) l.
Definition for_bugsnag (l : list (cmd * option fresh_err)) : list bcmd :=
  omap (λ ce : cmd * option fresh_err,
    match ce with (CEventErr job event _, Some (l, kvs)) => Some (BCmd job event l kvs) | _ => None end) l.
(** all goroutines have made all their calls *)
Definition all_returned (progs : list (list scall)) (tr : list qact) : Prop :=
  ∀ g prog, progs !! g = Some prog → returned tr g = length prog.

(** the steps of the sink at [k] *)
Definition poll_part (k : nat) (tr : list qact) : list pact :=
  omap (λ a, match a with
             | QEmit _ k' c _ => if decide (k' = k) then Some (PEmit c) else None
             | QPoll k' a => if decide (k' = k) then Some a else None
             | _ => None
             end) tr.
Definition statsd_part (k : nat) (tr : list qact) : list sact :=
  omap (λ a, match a with
             | QEmit _ k' c _ => if decide (k' = k) then Some (AEmit c) else None
             | QStatsd k' a => if decide (k' = k) then Some a else None
             | _ => None
             end) tr.

Definition librato_part (k : nat) (tr : list qact) : list lact :=
  omap (λ a, match a with
             | QEmit _ k' c _ => if decide (k' = k) then Some (GEmit (lib_cmd c).1 (lib_cmd c).2) else None
             | QLibrato k' a => if decide (k' = k) then Some a else None
             | _ => None
             end) tr.
Definition bugsnag_part (k : nat) (tr : list qact) : list bact :=
  omap (λ a, match a with
             | QEmit _ k' c e => if decide (k' = k) then BEnqueue <$> bug_cmd c e else None
             | QBugsnag k' a => if decide (k' = k) then Some a else None
             | _ => None
             end) tr.

(** nobody stops a sink *)
Definition nobody_stops (tr : list qact) : Prop :=
  Forall (λ a, match a with
               | QPoll _ (PShutCall _) | QStatsd _ (AStopCall _) | QLibrato _ (GStop _) | QBugsnag _ BShutdown => False
               | _ => True
               end) tr.
(** nobody calls Drain on the sink at [k] *)
Definition no_drain_at (k : nat) (tr : list qact) : Prop :=
  Forall (λ a, match a with QStatsd k' (ADrainCall _) => k' ≠ k | _ => True end) tr.
(** steps of the sinks and callers only: no new reads, drains, ticks, stops *)
Definition own_step (a : qact) : Prop :=
  match a with
  | QEmit _ _ _ _ | QNext _ => True
  | QPoll _ a => loop_step a
  | QStatsd _ a => internal a
  | QLibrato _ a => a = GTake
  | QBugsnag _ a => a = BNotify
  end.
(** the intervals of a polling sink are usable *)
Definition usable (x : ksink) : Prop := match x with KPoll s => ∃ d retain, 0 < d ∧ d ≤ retain ∧ s = pst0 d retain | _ => True end.
