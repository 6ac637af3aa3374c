(** * Property theorems: what must happen sooner or later (C109-C113)

    An execution [x] goes on for ever (SFair.v): [x_at x n] is the state after
    [n] moments, [x_act x n] what happens next, [acts x n] what happened so far. *)
From Verif Require Import SLive PLivePoll PLiveStatsd PLiveLibrato PLiveBugsnag PLiveEx.

(** ** C109 *)
(** Everything the polling sink accepted is aggregated. *)
Theorem C109_all_processed : ∀ d retain, 0 < d → d ≤ retain → ∀ x, poll_exec d retain x → poll_fair x → never is_shut_call x →
  ∀ n, ∃ m, (n ≤ m)%nat ∧ poll_accepted (acts x n) `prefix_of` poll_processed (acts x m).
Proof. exact poll_served. Qed.
Print Assumptions C109_all_processed.
(** So the queue has room again. *)
Theorem C109_room_again : ∀ d retain, 0 < d → d ≤ retain → ∀ x, poll_exec d retain x → poll_fair x → never is_shut_call x →
  ∀ n, ∃ m, (n ≤ m)%nat ∧ p_room (x_at x m).
Proof. exact poll_room. Qed.
Print Assumptions C109_room_again.
(** GetMetrics returns. *)
Theorem C109_readers_answered : ∀ d retain, 0 < d → d ≤ retain → ∀ x, poll_exec d retain x → poll_fair x → never is_shut_call x →
  ∀ n i, x_act x n = Some (PReadCall i) → ∃ m out, (n < m)%nat ∧ x_act x m = Some (PReadRet i out).
Proof. exact poll_answers. Qed.
Print Assumptions C109_readers_answered.
(** ShutdownServer returns. *)
Theorem C109_shutdown_returns : ∀ d retain, 0 < d → d ≤ retain → ∀ x, poll_exec d retain x → poll_fair x →
  ∀ n i, x_act x n = Some (PShutCall i) → (∀ m, happens is_shut_call x m → m = n) → ∃ m, (n < m)%nat ∧ x_act x m = Some (PShutRet i).
Proof. exact poll_shut. Qed.
Print Assumptions C109_shutdown_returns.

Example C109_example : ∃ x, poll_exec 60 60 x ∧ poll_fair x ∧ never is_shut_call x ∧
  x_act x 0%nat = Some (PEmit (CEvent "job" "event")) ∧ x_act x 1%nat = Some (PReadCall 7).
Proof. exact poll_fair_example. Qed.
Example C109_example_shutdown : ∃ x, poll_exec 60 60 x ∧ poll_fair x ∧ x_act x 0%nat = Some (PShutCall 3) ∧ (∀ m, happens is_shut_call x m → m = 0%nat).
Proof. exact poll_shut_example. Qed.

(** ** C110 *)
(** Everything the StatsD sink accepted is written to its packets. *)
Theorem C110_all_processed : ∀ o x, statsd_exec o x → statsd_fair o x → ∀ n, never stop_by x →
  ∃ m, (n ≤ m)%nat ∧ processed o (acts x n) (acts x m) (x_at x m).
Proof. exact statsd_processed. Qed.
Print Assumptions C110_all_processed.
(** The ticks send it, also without any Drain. *)
Theorem C110_ticks_deliver : ∀ o x, statsd_exec o x → statsd_fair o x → ∀ n, never stop_by x → never drain_by x →
  ∃ m, (n ≤ m)%nat ∧ delivered o (acts x n) (acts x m) (x_at x m).
Proof. exact statsd_delivered. Qed.
Print Assumptions C110_ticks_deliver.
Theorem C110_room_again : ∀ o x, statsd_exec o x → statsd_fair o x → ∀ n, never stop_by x → ∃ m, (n ≤ m)%nat ∧ room (x_at x m).
Proof. exact statsd_room. Qed.
Print Assumptions C110_room_again.
(** Stop returns. *)
Theorem C110_stop_returns : ∀ o x, statsd_exec o x → statsd_fair o x → ∀ n i, x_act x n = Some (AStopCall i) →
  (∀ m, happens stop_by x m → m = n) → never drain_by x → ∃ m, (n < m)%nat ∧ x_act x m = Some (AStopDone i).
Proof. exact statsd_stop. Qed.
Print Assumptions C110_stop_returns.

Example C110_example o : ∃ x, statsd_exec o x ∧ statsd_fair o x ∧ never stop_by x ∧ never drain_by x ∧ x_act x 0%nat = Some (AEmit (CEvent "job" "event")).
Proof. exact (statsd_fair_example o). Qed.
Example C110_example_stop o : ∃ x, statsd_exec o x ∧ statsd_fair o x ∧ x_act x 0%nat = Some (AStopCall 2) ∧ never drain_by x ∧
  (∀ m, happens stop_by x m → m = 0%nat) ∧ ∀ m, (3 ≤ m)%nat → x_act x m = None.
Proof. exact (statsd_stop_example o). Qed.

(** ** C111: false of the code.  Callers that keep emitting keep Drain from
    ever returning, although the loop and the ticker get their turns. *)
Theorem C111_drain_returns_refuted : ∀ o, ∃ x, statsd_exec o x ∧ statsd_fair o x ∧ never stop_by x ∧ x_act x 0%nat = Some (ADrainCall 0) ∧
  (∀ m, happens drain_by x m → m = 0%nat) ∧ ∀ m i, x_act x m ≠ Some (ADrainDone i).
Proof. exact statsd_starves. Qed.
Print Assumptions C111_drain_returns_refuted.
(** Drain returns if from some moment on nothing is put into the queue while
    it waits. *)
Theorem C111_drain_returns_partial : ∀ o x, statsd_exec o x → statsd_fair o x → ∀ n i k, x_act x n = Some (ADrainCall i) →
  (∀ m, happens drain_by x m → m = n) → never stop_by x → (∀ m, (k ≤ m)%nat → happens enqueues x m → i ∉ l_wd (x_at x m)) →
  ∃ m, (n < m)%nat ∧ x_act x m = Some (ADrainDone i).
Proof. exact statsd_drain. Qed.
Print Assumptions C111_drain_returns_partial.
Example C111_example o : ∃ x, statsd_exec o x ∧ statsd_fair o x ∧ x_act x 0%nat = Some (ADrainCall 2) ∧ never stop_by x ∧
  (∀ m, happens drain_by x m → m = 0%nat) ∧ (∀ m, (1 ≤ m)%nat → happens enqueues x m → 2%nat ∉ l_wd (x_at x m)).
Proof. exact (statsd_drain_example o). Qed.

(** ** C112 *)
(** What the Librato sink accepted is in its maps when a later tick sends them. *)
Theorem C112_flushed_after_taken : ∀ c x, librato_exec c x → librato_fair c x → never is_gstop x → ∀ n,
  ∃ m now ok ops, (n ≤ m)%nat ∧ loop_ops [] (acts x m) = ops ++ [LFlush now ok] ∧ SLibrato.emitted (acts x n) `prefix_of` cmds_of ops.
Proof. exact librato_flushed. Qed.
Print Assumptions C112_flushed_after_taken.
(** Stop returns. *)
Theorem C112_stop_returns : ∀ c x, librato_exec c x → librato_fair c x → ∀ n i, x_act x n = Some (GStop i) →
  ∃ m, (n < m)%nat ∧ x_act x m = Some (GStopped i).
Proof. exact librato_stop. Qed.
Print Assumptions C112_stop_returns.
Example C112_example c : ∃ x, librato_exec c x ∧ librato_fair c x ∧ never is_gstop x ∧ x_act x 0%nat = Some (GEmit "job" (WEvent "event")).
Proof. exact (librato_fair_example c). Qed.
Example C112_example_stop c : ∃ x, librato_exec c x ∧ librato_fair c x ∧ x_act x 0%nat = Some (GStop 4).
Proof. exact (librato_stop_example c). Qed.

(** ** C113 *)
(** Every error that was accepted is notified. *)
Theorem C113_all_notified : ∀ x, bugsnag_exec x → bugsnag_fair x → never (λ a, a = BShutdown) x → ∀ n,
  ∃ m, (n ≤ m)%nat ∧ enqueued (acts x n) `prefix_of` q_sent (x_at x m).
Proof. exact bugsnag_sent. Qed.
Print Assumptions C113_all_notified.
Example C113_example : ∃ x, bugsnag_exec x ∧ bugsnag_fair x ∧ never (λ a, a = BShutdown) x ∧ x_act x 0%nat = Some (BEnqueue (BCmd "job" "event" 1 None)).
Proof. exact bugsnag_fair_example. Qed.
