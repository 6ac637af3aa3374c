(** * Property theorems: every call returns and arrives (C115)

    [process_exec progs ks x]: an execution without end of goroutines with the
    calls [progs] and of the new sinks [ks]. *)
From Verif Require Import SLive3 SServer SLibrato PLiveProcess PLiveProcessEx.

(** ** C115 *)
(** Every call of every goroutine returns. *)
Theorem C115_all_return : ∀ progs ks x, process_exec progs ks x → process_fair x → never stops_sink x → ∃ m, all_returned progs (acts x m).
Proof. exact process_returns. Qed.
Print Assumptions C115_all_return.

(** Every call arrives in the aggregation of every polling sink, once. *)
Theorem C115_all_aggregated : ∀ progs ks x, process_exec progs ks x → process_fair x → never stops_sink x →
  ∀ k d retain, ks !! k = Some (KPoll (pst0 d retain)) → 0 < d → d ≤ retain →
  ∃ m, all_returned progs (acts x m) ∧ poll_processed (poll_part k (acts x m)) ≡ₚ concat (map (tells_sink k) progs).
Proof. exact process_polled. Qed.
Print Assumptions C115_all_aggregated.

(** Every call is counted by the server behind every StatsD sink, without any
    Drain. *)
Theorem C115_all_counted : ∀ progs ks x, process_exec progs ks x → process_fair x → never stops_sink x →
  ∀ k o name, ks !! k = Some (KStatsd o lst0) → never (drains_sink k) x → clean o → all_fit o (concat (map (tells_sink k) progs)) →
  ∃ m l, all_returned progs (acts x m) ∧ q_sinks (x_at x m) !! k = Some (KStatsd o l) ∧
    counter name (sd_sent (l_sd l)) = counts o name (concat (map (tells_sink k) progs)).
Proof. exact process_counted. Qed.
Print Assumptions C115_all_counted.

(** A flush of every Librato sink comes after every call, once. *)
Theorem C115_all_flushed : ∀ progs ks x, process_exec progs ks x → process_fair x → never stops_sink x →
  ∀ k c, ks !! k = Some (KLibrato c lgo0) →
  ∃ m now ok ops, all_returned progs (acts x m) ∧ loop_ops [] (librato_part k (acts x m)) = ops ++ [LFlush now ok] ∧
    cmds_of ops ≡ₚ for_librato (concat (map (tells_sink k) progs)).
Proof. exact process_flushed. Qed.
Print Assumptions C115_all_flushed.

(** Every report of a new error is sent by every Bugsnag sink, once. *)
Theorem C115_all_notified : ∀ progs ks x, process_exec progs ks x → process_fair x → never stops_sink x →
  ∀ k, ks !! k = Some (KBugsnag bq0) →
  ∃ m b, all_returned progs (acts x m) ∧ q_sinks (x_at x m) !! k = Some (KBugsnag b) ∧
    q_sent b ≡ₚ concat (map (λ prog, for_bugsnag (hears k prog)) progs).
Proof. exact process_notified. Qed.
Print Assumptions C115_all_notified.

Example C115_example o c :
  (∃ x, process_exec [[pl_call]] [KPoll (pst0 60 60); KStatsd o lst0; KLibrato c lgo0; KBugsnag bq0] x ∧ process_fair x ∧ never stops_sink x ∧ never (drains_sink 1) x) ∧
  for_librato (tells_sink 2 [pl_call]) = [("job", WEventErr "event" "")] ∧ for_bugsnag (hears 3 [pl_call]) = [BCmd "job" "event" 7 None].
Proof. split; [exact (process_fair_example o c)|done]. Qed.
