(** * Property theorems: the StatsD sink's ticker, and the goroutines of stopped sinks (C132) *)
From Verif Require Import PFair PLivePoll PLiveLibrato PLiveEx PLiveTicker PLiveTickerEx PLiveEnd SLive11.

(** ** C132: when a sink's Stop or ShutdownServer has returned, the goroutines it
    started end *)
(** The StatsD sink's goroutine that asks for flushes never does: from some time
    on it waits for ever, for a tick or for room in the queue. *)
Theorem C132_flusher_stays_refuted : ∀ o x n, ticker_exec o x → ticker_fair o x → l_loop (k_l (x_at x n)) = LDone →
  ∃ m, (n ≤ m)%nat ∧ ∀ j, (m ≤ j)%nat → ¬ possible (kstep o) by_flusher (x_at x j).
Proof. intros o x n Hx Hf. exact (waits_for_ever o x Hx Hf n). Qed.
Print Assumptions C132_flusher_stays_refuted.
(** for a tick, *)
Example C132_for_a_tick o : ∃ x, ticker_exec o x ∧ ticker_fair o x ∧ x_act x 2%nat = Some (KSink (AStopDone 2)) ∧ l_loop (k_l (x_at x 3%nat)) = LDone ∧
  ∀ m, (4 ≤ m)%nat → k_go (x_at x m) = TkRecv.
Proof. exact (stop_example o). Qed.
(** or for room *)
Example C132_for_room o : ∃ x m, ticker_exec o x ∧ ticker_fair o x ∧ x_act x 4%nat = Some (KSink (AStopDone 2)) ∧ l_loop (k_l (x_at x 5%nat)) = LDone ∧
  ∀ j, (m ≤ j)%nat → k_go (x_at x j) = TkSend ∧ ¬ room (k_l (x_at x j)).
Proof. exact (full_example o). Qed.
(** After the ticker was stopped it puts at most two flushes into the queue. *)
Theorem C132_few_flushes_partial : ∀ o x n k, ticker_exec o x → k_on (x_at x n) = false → (flushes_from x n k ≤ 2)%nat.
Proof. intros o x n k Hx. exact (flushes_after_stop o x Hx n k). Qed.
Print Assumptions C132_few_flushes_partial.
(** The loops of all sinks have ended when the call has returned. *)
Theorem C132_statsd_loop_partial : ∀ o x n i, statsd_exec o x → x_act x n = Some (AStopDone i) → ∀ m, (n < m)%nat → ¬ happens internal x m.
Proof. exact statsd_ends. Qed.
Print Assumptions C132_statsd_loop_partial.
Theorem C132_poll_loop_partial : ∀ d retain x n i, poll_exec d retain x → x_act x n = Some (PShutRet i) → ∀ m, (n < m)%nat → ¬ happens by_poll_loop x m.
Proof. exact poll_ends. Qed.
Print Assumptions C132_poll_loop_partial.
Theorem C132_librato_loop_partial : ∀ c x n i, librato_exec c x → x_act x n = Some (GStopped i) → ∀ m, (n < m)%nat → ¬ happens by_librato_loop x m.
Proof. exact librato_ends. Qed.
Print Assumptions C132_librato_loop_partial.
Theorem C132_bugsnag_loop_partial : ∀ x n, bugsnag_exec x → x_act x n = Some BShutdown → ∀ m, (n < m)%nat → ¬ happens (λ a, a = BNotify) x m.
Proof. exact bugsnag_ends. Qed.
Print Assumptions C132_bugsnag_loop_partial.
Example C132_loops : (∃ x n, poll_exec 60 60 x ∧ x_act x n = Some (PShutRet 3)) ∧ (∀ c, ∃ x n, librato_exec c x ∧ x_act x n = Some (GStopped 4)) ∧
  ∃ x n, bugsnag_exec x ∧ x_act x n = Some BShutdown.
Proof. exact ends_examples. Qed.

(** The ticker, the goroutine and the loop together are the sink of C110, with
    its fairness. *)
Theorem C132_sink : ∀ o x, ticker_exec o x → statsd_exec o (sink_view x) ∧ (ticker_fair o x → statsd_fair o (sink_view x)).
Proof. intros o x Hx. exact (conj (view_exec o x Hx) (view_fair o x Hx)). Qed.
Print Assumptions C132_sink.
Example C132_example o : ∃ x, ticker_exec o x ∧ ticker_fair o x ∧ never stop_by (sink_view x) ∧ forever (happens is_tick (sink_view x)).
Proof. exact (flushes_example o). Qed.
