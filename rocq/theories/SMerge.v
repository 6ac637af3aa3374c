(** * Specification vocabulary for Merge *)
From Verif Require Export MMerge SAgg.

(** The values are int64s, as the Go types guarantee. *)
Definition int64_timer (t : timer) : Prop :=
  in_int64 (t_count t) ∧ in_int64 (t_sum t) ∧ in_int64 (t_min t) ∧ in_int64 (t_max t).
Definition int64_maps (m : amaps) : Prop :=
  (∀ k v, am_events m !! k = Some v → in_int64 v) ∧
  (∀ k t, am_timers m !! k = Some t → int64_timer t) ∧
  (∀ k c, am_errs m !! k = Some c → in_int64 (ec_count c)).
Definition int64_job (j : jobagg) : Prop :=
  int64_maps (j_maps j) ∧ int64_timer (j_timer j) ∧ in_int64 (j_success j) ∧
  in_int64 (j_verror j) ∧ in_int64 (j_panic j) ∧ in_int64 (j_error j) ∧ in_int64 (j_junk j).
Definition int64_ia (a : ia) : Prop :=
  in_int64 (ia_serial a) ∧ int64_maps (ia_maps a) ∧
  ∀ k j, ia_jobs a !! k = Some j → int64_job j.

(** The counters an operator sees: everything but gauges, sums of squares and
    error samples. *)
Definition view_timer (t : timer) := (t_count t, t_sum t, t_min t, t_max t).
Definition view_maps (m : amaps) :=
  (am_events m, ec_count <$> am_errs m, view_timer <$> am_timers m).
Definition view_job (j : jobagg) :=
  (view_maps (j_maps j), view_timer (j_timer j),
   (j_success j, j_verror j, j_panic j, j_error j, j_junk j)).
Definition view_ia (a : ia) :=
  (ia_start a, ia_serial a, view_job <$> ia_jobs a, view_maps (ia_maps a)).

(** Counts and sums only. *)
Definition cs_timer (t : timer) := (t_count t, t_sum t).
Definition cs_maps (m : amaps) :=
  (am_events m, ec_count <$> am_errs m, cs_timer <$> am_timers m).
Definition cs_job (j : jobagg) :=
  (cs_maps (j_maps j), cs_timer (j_timer j),
   (j_success j, j_verror j, j_panic j, j_error j, j_junk j)).
Definition cs_ia (a : ia) := (cs_job <$> ia_jobs a, cs_maps (ia_maps a)).

(** the counters of a (possibly missing) entry *)
Definition ev (m : amaps) (e : string) : Z := mget (am_events m) e 0.
Definition er (m : amaps) (e : string) : Z := ec_count (mget (am_errs m) e errc0).
Definition tm (m : amaps) (e : string) : timer := mget (am_timers m) e timer0.

(** [i] is the interval starting at [s] that a sink with history [h] reports *)
Definition reports (d retain : Z) (h : list (Z * aop)) (t s : Z) (i : ia) : Prop :=
  clock_monotone (h ++ [(t, OpRead)]) ∧
  ∃ out, get_metrics d retain h t = Ok out ∧ i ∈ out ∧ ia_start i = s.
