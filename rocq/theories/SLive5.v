(** * What must happen sooner or later in the runtime metrics (C122)

    In executions without end (SFair.v). *)
From Verif Require Export SFair SRuntime.

(** steps that are not panics (C88) *)
Definition rok (o : ropts) (s : rst) (a : ract) (s' : rst) : Prop := rstep o s a (Ok s').
Definition is_tick (p : nat) (a : ract) : Prop := ∃ r, a = RTick p r.
Definition is_stop_of (p : nat) (a : ract) : Prop := ∃ i, a = RStop i p.
Definition is_stop_by (i : nat) (a : ract) : Prop := ∃ p, a = RStop i p.
Definition is_stop_not_by (i : nat) (a : ract) : Prop := ∃ j p, j ≠ i ∧ a = RStop j p.
Definition is_return_of (i : nat) (a : ract) : Prop := ∃ p, a = RStopped i p.
Definition is_emission (p : nat) (a : ract) : Prop := (∃ k v, a = RGauge p k v) ∨ a = RReported p.

(** new goroutines run, tickers tick and are not overlooked by the select,
    calls of Gauge return (C115), what can be received is *)
Record runtime_fair (o : ropts) (x : exec rst ract) : Prop := {
  rf_ticker : ∀ p, weakly_fair (rok o) (λ a, a = RTicker p) x;
  rf_tick : ∀ p, strongly_fair (rok o) (is_tick p) x;
  rf_emission : ∀ p, weakly_fair (rok o) (is_emission p) x;
  rf_stopped : ∀ i, weakly_fair (rok o) (is_return_of i) x }.
(** caller [i] calls Stop and is not overlooked *)
Definition keeps_stopping (o : ropts) (i : nat) (x : exec rst ract) : Prop := strongly_fair (rok o) (is_stop_by i) x.
