(** * What RuntimeMetrics should report (C69, C87, C88) *)
From Verif Require Export MRuntime.

(** every gauge: is it wanted, its name, its value *)
Definition gauge_table (o : ropts) (r : readings) : list (bool * string * option f64) :=
  [(ro_memory o, "alloc", Some (fofZ (rd_alloc r)));
   (ro_memory o, "heap_objects", Some (fofZ (rd_heap r)));
   (ro_gc o, "pause_total_ns", Some (fofZ (rd_pause r)));
   (ro_gc o, "num_gc", Some (fofZ (rd_numgc r)));
   (ro_gc o, "next_gc", Some (fofZ (rd_nextgc r)));
   (ro_gc o, "gc_cpu_fraction", Some (rd_frac r));
   (ro_gcq o, "gc_pause_quantile_50", Some (fdiv (fofZ (Z.quot (rd_q50 r) 1000)) (fofZ 1000)));  (* ms, whole microseconds *)
   (ro_gcq o, "gc_pause_quantile_max", Some (fdiv (fofZ (Z.quot (rd_qmax r) 1000)) (fofZ 1000)));
   (ro_goroutines o, "num_goroutines", Some (fofZ (rd_goroutines r)));
   (ro_cgo o, "num_cgo_call", Some (fofZ (rd_cgo r)));
   (ro_fds o, "num_fds_used", fofZ <$> rd_fds r)].
Definition wanted (o : ropts) (r : readings) : list (string * f64) :=
  omap (λ x : bool * string * option f64, match x with (true, k, Some v) => Some (k, v) | _ => None end) (gauge_table o r).

(** what poller [p] emitted, and what its reports should have emitted *)
Fixpoint gauges_of (p : nat) (tr : list ract) : list (string * f64) :=
  match tr with
  | [] => []
  | RGauge q k v :: tr => if decide (q = p) then (k, v) :: gauges_of p tr else gauges_of p tr
  | _ :: tr => gauges_of p tr
  end.
Fixpoint reports_of (o : ropts) (p : nat) (tr : list ract) : list (list (string * f64)) :=
  match tr with
  | [] => []
  | RTick q r :: tr => if decide (q = p) then wanted o r :: reports_of o p tr else reports_of o p tr
  | _ :: tr => reports_of o p tr
  end.
Fixpoint starts (tr : list ract) : Z :=
  match tr with [] => 0 | RStart :: tr => 1 + starts tr | _ :: tr => starts tr end.
Fixpoint stops (tr : list ract) : Z :=
  match tr with [] => 0 | RStopped _ _ :: tr => 1 + stops tr | _ :: tr => stops tr end.
Definition is_gauge (a : ract) : Prop := match a with RGauge _ _ _ => True | _ => False end.
(** pollers that have not ended *)
Definition gone (ph : pphase) : bool := match ph with PGone => true | _ => false end.
Fixpoint live_in (l : list pphase) : Z := match l with [] => 0 | ph :: l => (if gone ph then 0 else 1) + live_in l end.
Definition live (s : rst) : Z := live_in (rs_pollers s).
