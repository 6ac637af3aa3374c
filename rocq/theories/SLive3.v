(** * What must happen sooner or later in a process (C115)

    In executions without end (SFair.v). *)
From Verif Require Export SLive SProcess.

(** a step of the sink at [k] *)
Definition at_poll (k : nat) (P : pact → Prop) (a : qact) : Prop := match a with QPoll k' b => k' = k ∧ P b | _ => False end.
Definition at_statsd (k : nat) (P : sact → Prop) (a : qact) : Prop := match a with QStatsd k' b => k' = k ∧ P b | _ => False end.
Definition at_librato (k : nat) (P : lact → Prop) (a : qact) : Prop := match a with QLibrato k' b => k' = k ∧ P b | _ => False end.
Definition at_bugsnag (k : nat) (P : bact → Prop) (a : qact) : Prop := match a with QBugsnag k' b => k' = k ∧ P b | _ => False end.
(** goroutine [g] goes on: a sink's method, or its own call, returns *)
Definition by_caller (g : nat) (a : qact) : Prop := match a with QEmit g' _ _ _ | QNext g' => g' = g | _ => False end.

(** the loop of the StatsD sink at [k] has not left *)
Definition ticking_at (k : nat) (s : proc) (a : qact) (s' : proc) : Prop :=
  match q_sinks s !! k with Some (KStatsd _ l) => l_loop l ≠ LDone | _ => False end ∧ qstep s a s'.
(** goroutines waiting for room in a queue get their turn; the sinks are fair
    as in C109-C113 *)
Record process_fair (x : exec proc qact) : Prop := {
  qf_caller : ∀ g, strongly_fair qstep (by_caller g) x;
  qf_take : ∀ k, strongly_fair qstep (at_poll k is_take) x;
  qf_read : ∀ k i, strongly_fair qstep (at_poll k (is_read_take i)) x;
  qf_shut : ∀ k, strongly_fair qstep (at_poll k is_shut_take) x;
  qf_read_ret : ∀ k, weakly_fair qstep (at_poll k is_read_ret) x;
  qf_shut_ret : ∀ k, weakly_fair qstep (at_poll k is_shut_ret) x;
  qf_loop : ∀ k, weakly_fair qstep (at_statsd k internal) x;
  qf_tick : ∀ k, strongly_fair (ticking_at k) (at_statsd k is_tick) x;
  qf_gtake : ∀ k, weakly_fair qstep (at_librato k is_gtake) x;
  qf_gtick : ∀ k, weakly_fair qstep (at_librato k is_gtick) x;
  qf_gstopped : ∀ k, weakly_fair qstep (at_librato k is_gstopped) x;
  qf_notify : ∀ k, weakly_fair qstep (at_bugsnag k (λ b, b = BNotify)) x }.
Record process_exec (progs : list (list scall)) (ks : list ksink) (x : exec proc qact) : Prop := {
  qe_exec : is_exec qstep x;
  qe_start : x_at x 0%nat = proc0 progs ks;
  qe_new : Forall new_sink ks;
  qe_usable : Forall usable ks }.

Definition stops_sink (a : qact) : Prop := 
  match a with QPoll _ (PShutCall _) | QStatsd _ (AStopCall _) | QLibrato _ (GStop _) | QBugsnag _ BShutdown => True | _ => False end.
Definition drains_sink (k : nat) (a : qact) : Prop := match a with QStatsd k' (ADrainCall _) => k' = k | _ => False end.
