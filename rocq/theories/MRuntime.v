(** * Model of runtime_metrics/runtime_metrics.go *)
From Verif Require Export Base.

(** runtime_metrics.go:17-26 *)
Record ropts := ROpts {
  ro_interval : Z; ro_memory : bool; ro_gc : bool; ro_gcq : bool; ro_goroutines : bool; ro_cgo : bool; ro_fds : bool }.
(** 38: what a nil *Options stands for *)
Definition ropts_default : ropts := ROpts 5000000000 true true true true true true.
(** 28-42 [NewRuntimeMetrics] *)
Definition new_opts (o : option ropts) : ropts := match o with Some o => o | None => ropts_default end.

(** what the runtime answers during one Report: MemStats, GCStats, NumGoroutine,
    NumCgoCall and getFDUsage (None: it returned an error) *)
Record readings := Readings {
  rd_alloc : Z; rd_heap : Z; rd_pause : Z; rd_numgc : Z; rd_nextgc : Z; rd_frac : f64;
  rd_q50 : Z; rd_qmax : Z; rd_goroutines : Z; rd_cgo : Z; rd_fds : option Z }.

(** 70-110 [Report]: the Gauge calls, in order *)
Definition report (o : ropts) (r : readings) : list (string * f64) :=
  (if ro_memory o then [("alloc", fofZ (rd_alloc r)); ("heap_objects", fofZ (rd_heap r))] else []) ++
  (if ro_gc o then [("pause_total_ns", fofZ (rd_pause r)); ("num_gc", fofZ (rd_numgc r));
                    ("next_gc", fofZ (rd_nextgc r)); ("gc_cpu_fraction", rd_frac r)] else []) ++
  (if ro_gcq o then [("gc_pause_quantile_50", fdiv (fofZ (Z.quot (rd_q50 r) 1000)) (fofZ 1000));
                     ("gc_pause_quantile_max", fdiv (fofZ (Z.quot (rd_qmax r) 1000)) (fofZ 1000))] else []) ++
  (if ro_goroutines o then [("num_goroutines", fofZ (rd_goroutines r))] else []) ++
  (if ro_cgo o then [("num_cgo_call", fofZ (rd_cgo r))] else []) ++
  (if ro_fds o then match rd_fds r with Some n => [("num_fds_used", fofZ n)] | None => [] end else []).

(** ** Start, Stop and the poller goroutines (44-68) *)
Inductive pphase :=
  | PNew                              (* 45: not running yet *)
  | PSelect                           (* 58: in the select *)
  | PReport (todo : list (string * f64))  (* 62: inside Report, these Gauge calls to come *)
  | PAck                              (* 67: blocked on stopStopChan *)
  | PGone.
Record rst := RSt {
  rs_pollers : list pphase;           (* one per Start *)
  rs_wait : list nat }.               (* callers of Stop blocked at 50 *)
Definition rst0 : rst := RSt [] [].

Inductive ract :=
  | RStart                            (* 44-46 *)
  | RTicker (p : nat)                 (* 54: time.NewTicker *)
  | RTick (p : nat) (r : readings)    (* 61-62: the ticker fired, Report begins *)
  | RGauge (p : nat) (k : string) (v : f64)  (* 112-114 *)
  | RReported (p : nat)               (* Report returned *)
  | RStop (i p : nat)                 (* i's send on stopChan (49) received by p (59) *)
  | RStopped (i p : nat).             (* p's send on stopStopChan (67) received by i (50) *)

Definition upd (s : rst) (p : nat) (ph : pphase) : rst := RSt (<[p := ph]> (rs_pollers s)) (rs_wait s).

(** [Crash]: time.NewTicker panics on a non-positive interval *)
Inductive rstep (o : ropts) : rst → ract → res rst → Prop :=
  | Rt_start s : rstep o s RStart (Ok (RSt (rs_pollers s ++ [PNew]) (rs_wait s)))
  | Rt_ticker s p : rs_pollers s !! p = Some PNew → 0 < ro_interval o → rstep o s (RTicker p) (Ok (upd s p PSelect))
  | Rt_ticker_panic s p : rs_pollers s !! p = Some PNew → ro_interval o ≤ 0 →
      rstep o s (RTicker p) (Crash "non-positive interval for NewTicker")
  | Rt_tick s p r : rs_pollers s !! p = Some PSelect → rstep o s (RTick p r) (Ok (upd s p (PReport (report o r))))
  | Rt_gauge s p k v l : rs_pollers s !! p = Some (PReport ((k, v) :: l)) → rstep o s (RGauge p k v) (Ok (upd s p (PReport l)))
  | Rt_reported s p : rs_pollers s !! p = Some (PReport []) → rstep o s (RReported p) (Ok (upd s p PSelect))
  | Rt_stop s i p : rs_pollers s !! p = Some PSelect → i ∉ rs_wait s →
      rstep o s (RStop i p) (Ok (RSt (<[p := PAck]> (rs_pollers s)) (i :: rs_wait s)))
  | Rt_stopped s i p : rs_pollers s !! p = Some PAck → i ∈ rs_wait s →
      rstep o s (RStopped i p) (Ok (RSt (<[p := PGone]> (rs_pollers s)) (remove Nat.eq_dec i (rs_wait s)))).
Inductive rsteps (o : ropts) : rst → list ract → res rst → Prop :=
  | Rs_nil s : rsteps o s [] (Ok s)
  | Rs_cons s a s' tr r : rstep o s a (Ok s') → rsteps o s' tr r → rsteps o s (a :: tr) r
  | Rs_crash s a w : rstep o s a (Crash w) → rsteps o s [a] (Crash w).
