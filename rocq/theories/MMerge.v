(** * Model of Merge and Clone on values
      (interval_aggregation_merge.go, interval_aggregation_clone.go)

    [range] loops take the enumeration of the map explicitly (suffix [_loop]);
    the plain versions use one fixed enumeration.  PMerge.v proves that every
    enumeration gives the same result.  Clone is the identity on values; its
    pointer-level content is in MHeap.v. *)
From Verif Require Export MAgg.

(** interval_aggregation_merge.go:29-39 [TimerAggregation.merge] *)
Definition timer_merge (into from : timer) : timer :=
  Timer (w64 (t_count into + t_count from))
        (w64 (t_sum into + t_sum from))
        (fadd (t_ss into) (t_ss from))
        (if t_min from <? t_min into then t_min from else t_min into)
        (if t_max into <? t_max from then t_max from else t_max into).

(** interval_aggregation_merge.go:60-67: the existing counter's count is
    increased and every non-nil sample is added in array order *)
Definition errc_merge (into from : errc) : errc :=
  let into := Errc (w64 (ec_count into + ec_count from)) (ec_samples into) (ec_index into) in
  fold_left (λ acc e, match e with Some x => add_error acc (Some x) | None => acc end)
            (ec_samples from) into.

(** interval_aggregation_merge.go:42-44: [intoAm.Events[k] += v] *)
Definition merge_events_loop (l : list (string * Z)) (into : gmap string Z) : gmap string Z :=
  range l (λ k v m, <[k := w64 (mget m k 0 + v)]> m) into.

(** interval_aggregation_merge.go:46-48: [intoAm.Gauges[k] = v] *)
Definition merge_gauges_loop (l : list (string * f64)) (into : gmap string f64) : gmap string f64 :=
  range l (λ k v m, <[k := v]> m) into.

(** interval_aggregation_merge.go:50-56 *)
Definition merge_timers_loop (l : list (string * timer)) (into : gmap string timer) : gmap string timer :=
  range l (λ k v m,
    match m !! k with
    | Some existing => <[k := timer_merge existing v]> m
    | None => <[k := v]> m
    end) into.

(** interval_aggregation_merge.go:58-71 *)
Definition merge_errs_loop (l : list (string * errc)) (into : gmap string errc) : gmap string errc :=
  range l (λ k v m,
    match m !! k with
    | Some existing => <[k := errc_merge existing v]> m
    | None => <[k := v]> m
    end) into.

(** interval_aggregation_merge.go:41-72 [aggregationMaps.merge] *)
Definition amaps_merge (into from : amaps) : amaps :=
  AMaps (merge_timers_loop (map_to_list (am_timers from)) (am_timers into))
        (merge_gauges_loop (map_to_list (am_gauges from)) (am_gauges into))
        (merge_events_loop (map_to_list (am_events from)) (am_events into))
        (merge_errs_loop (map_to_list (am_errs from)) (am_errs into)).

(** interval_aggregation_merge.go:19-27 [JobAggregation.merge] *)
Definition job_merge (into from : jobagg) : jobagg :=
  JobAgg (amaps_merge (j_maps into) (j_maps from))
         (timer_merge (j_timer into) (j_timer from))
         (w64 (j_success into + j_success from))
         (w64 (j_verror into + j_verror from))
         (w64 (j_panic into + j_panic from))
         (w64 (j_error into + j_error from))
         (w64 (j_junk into + j_junk from)).

(** interval_aggregation_merge.go:8-14 *)
Definition merge_jobs_loop (l : list (string * jobagg)) (into : gmap string jobagg) : gmap string jobagg :=
  range l (λ k v m,
    match m !! k with
    | Some existing => <[k := job_merge existing v]> m
    | None => <[k := v]> m
    end) into.

(** interval_aggregation_merge.go:5-17 [IntervalAggregation.Merge] *)
Definition ia_merge (into from : ia) : ia :=
  IA (ia_start into) (w64 (ia_serial into + 1))
     (merge_jobs_loop (map_to_list (ia_jobs from)) (ia_jobs into))
     (amaps_merge (ia_maps into) (ia_maps from)).

(** healthd/healthd.go:292-295 and healthd/api.go:206-209: merge a list of
    aggregations into a fresh one *)
Definition merge_all (start : Z) (l : list ia) : ia := fold_left ia_merge l (new_ia start).
