(** * Property theorems: runtime metrics (C69, C87, C88)

    [rsteps o rst0 tr r]: Start and Stop are called from any goroutines, the
    pollers run, [tr] is what happens, [r] the state reached or a crash. *)
From Verif Require Import SRuntime PRuntime PRuntime2.

Definition ex_opts : ropts := ROpts 1 true false false false false true.
Definition ex_read : readings := Readings 10 20 3 4 5 f0 6000 7999 8 9 (Some 11).

(** ** C69 *)
Theorem C69_report_is_what_is_enabled : ∀ o r, report o r = wanted o r ∧ NoDup (map fst (report o r)).
Proof. exact thm_report. Qed.
Print Assumptions C69_report_is_what_is_enabled.

Theorem C69_reports_complete_at_stop : ∀ o tr i p s, rsteps o rst0 (tr ++ [RStop i p]) (Ok s) →
  gauges_of p tr = concat (reports_of o p tr).
Proof. exact thm_complete. Qed.
Print Assumptions C69_reports_complete_at_stop.

Theorem C69_silent_after_stop : ∀ o tr1 i p tr2 r, rsteps o rst0 (tr1 ++ RStop i p :: tr2) r → gauges_of p (RStop i p :: tr2) = [].
Proof. exact thm_silent. Qed.
Print Assumptions C69_silent_after_stop.

(** as many Stops have returned as there were Starts *)
Theorem C69_no_report_after_stop_returned : ∀ o tr1 s tr2 r,
  rsteps o rst0 tr1 (Ok s) → starts tr1 = stops tr1 → rsteps o s tr2 r → starts tr2 = 0 → ∀ a, a ∈ tr2 → ¬ is_gauge a.
Proof. exact thm_no_more. Qed.
Print Assumptions C69_no_report_after_stop_returned.

(** without options: everything, every five seconds *)
Theorem C69_default_reports_all : ∀ r, ro_interval (new_opts None) = 5 * 1000000000 ∧
  report (new_opts None) r = omap (λ x : bool * string * option f64, (λ v, (x.1.2, v)) <$> x.2) (gauge_table (new_opts None) r).
Proof. exact thm_default. Qed.
Print Assumptions C69_default_reports_all.

Definition ex_run : list ract :=
  [RStart; RTicker 0; RTick 0 ex_read; RGauge 0 "alloc" (fofZ 10); RGauge 0 "heap_objects" (fofZ 20); RGauge 0 "num_fds_used" (fofZ 11);
   RReported 0; RStop 7 0; RStopped 7 0].
Example C69_example : ∃ s, rsteps ex_opts rst0 ex_run (Ok s) ∧ starts ex_run = stops ex_run ∧
  reports_of ex_opts 0 ex_run = [[("alloc", fofZ 10); ("heap_objects", fofZ 20); ("num_fds_used", fofZ 11)]] ∧
  map fst (report ropts_default ex_read) =
    ["alloc"; "heap_objects"; "pause_total_ns"; "num_gc"; "next_gc"; "gc_cpu_fraction"; "gc_pause_quantile_50"; "gc_pause_quantile_max";
     "num_goroutines"; "num_cgo_call"; "num_fds_used"].
Proof.
  eexists. split; [|by vm_compute]. unfold ex_run.
  econstructor; [apply Rt_start|]. econstructor; [apply Rt_ticker; done|]. econstructor; [apply Rt_tick; done|].
  do 3 (econstructor; [eapply Rt_gauge; reflexivity|]). econstructor; [apply Rt_reported; done|].
  econstructor; [apply Rt_stop; [done|apply not_elem_of_nil]|]. econstructor; [apply Rt_stopped; [done|left]|]. constructor.
Qed.

(** ** C87: Stop stops one poller; without one it never returns *)
Theorem C87_stop_stops_reporting_refuted :
  (∃ o tr1 s k v s', rsteps o rst0 tr1 (Ok s) ∧ stops tr1 = 1 ∧ rsteps o s [RTick 1 ex_read; RGauge 1 k v] (Ok s')) ∧
  (∀ o tr r, rsteps o rst0 tr r → starts tr = 0 → stops tr = 0).
Proof.
  split.
  - exists ex_opts, [RStart; RStart; RTicker 0; RTicker 1; RStop 7 0; RStopped 7 0]. eexists _, "alloc", (fofZ 10), _. split; [|split; [done|]].
    + econstructor; [apply Rt_start|]. econstructor; [apply Rt_start|]. econstructor; [apply Rt_ticker; done|]. econstructor; [apply Rt_ticker; done|].
      econstructor; [apply Rt_stop; [done|apply not_elem_of_nil]|]. econstructor; [apply Rt_stopped; [done|left]|]. constructor.
    + econstructor; [apply Rt_tick; done|]. econstructor; [eapply Rt_gauge; reflexivity|]. constructor.
  - intros o tr r H E. eapply (thm_stop_hangs o [] rst0); [constructor|done|exact H|done].
Qed.
Print Assumptions C87_stop_stops_reporting_refuted.

(** missing: more Starts than Stops; holds for equal numbers (C69) *)
Theorem C87_live_pollers_partial : ∀ o tr s, rsteps o rst0 tr (Ok s) → live s = starts tr - stops tr.
Proof. exact thm_live. Qed.
Print Assumptions C87_live_pollers_partial.

Theorem C87_stop_needs_start_partial : ∀ o tr1 s tr2 r,
  rsteps o rst0 tr1 (Ok s) → starts tr1 = stops tr1 → rsteps o s tr2 r → starts tr2 = 0 → stops tr2 = 0.
Proof. exact thm_stop_hangs. Qed.
Print Assumptions C87_stop_needs_start_partial.

(** ** C88: Options without an interval crash the process *)
Theorem C88_any_options_safe_refuted : ∃ o tr w, rsteps (new_opts (Some o)) rst0 tr (Crash w) ∧ ro_interval o = 0.
Proof.
  exists (ROpts 0 true true true true true true), [RStart; RTicker 0], "non-positive interval for NewTicker". split; [|done].
  econstructor; [apply Rt_start|]. apply Rs_crash. by apply Rt_ticker_panic.
Qed.
Print Assumptions C88_any_options_safe_refuted.

(** missing: a non-positive interval *)
Theorem C88_safe_partial : ∀ o s tr w, 0 < ro_interval o → ¬ rsteps o s tr (Crash w).
Proof. exact thm_no_crash. Qed.
Print Assumptions C88_safe_partial.
(** a crash is possible exactly then: no Start is safe with such an interval *)
Theorem C88_exactly_partial : ∀ o, (∃ tr w, rsteps o rst0 tr (Crash w)) ↔ ro_interval o ≤ 0.
Proof. exact thm_crash_exactly. Qed.
Print Assumptions C88_exactly_partial.
Example C88_example : 0 < ro_interval (new_opts None).
Proof. done. Qed.
