(** * Model of the Librato sink (sinks/librato/sink.go) *)
From Verif Require Export MUtf8 MWriter.

(** ** Names *)

(** sink.go:313-332 [shouldSanitize] *)
Definition should_sanitize (r : Z) : bool :=
  negb ((65 <=? r) && (r <=? 90) || (97 <=? r) && (r <=? 122) || (48 <=? r) && (r <=? 57) ||
        (r =? 46) || (r =? 58) || (r =? 45) || (r =? 95)).
(** sink.go:334-352 [sanitizeKey]; a rune that is kept is ASCII, one byte *)
Definition sanitize_key (k : string) : string :=
  if existsb should_sanitize (runes k)
  then str_of (map (λ r, if should_sanitize r then "_"%char else zchar r) (runes k))
  else k.

(** sink.go:16-37: what does not change after New; [c_san] is SanitizationFunc *)
Record lconf := LConf { c_prefix : string; c_san : string → string; c_period : Z; c_source : string }.

(** sink.go:208-232 [eventKeys] *)
Definition event_keys (c : lconf) (job event suffix : string) : string * string :=
  let start := if decide (c_prefix c = "") then "" else c_prefix c +:+ "." in
  let key1 := start +:+ c_san c event in
  let key2 := start +:+ c_san c job +:+ "." +:+ c_san c event in
  if decide (suffix = "") then (key1, key2) else (key1 +:+ "." +:+ suffix, key2 +:+ "." +:+ suffix).

(** ** Accumulated metrics *)

(** sink.go:39-46; the attributes are constant *)
Record lgauge := LGauge { lg_count : Z; lg_sum : f64; lg_min : f64; lg_max : f64; lg_ss : f64 }.
Notation timers := (gmap string lgauge).
Notation counters := (gmap string Z).

(** sink.go:234-236 [inc] *)
Definition inc (m : counters) (key : string) : counters := <[key := w64 (mget m key 0 + 1)]> m.
(** sink.go:238-255 [measure] *)
Definition measure (m : timers) (key : string) (value : f64) : timers :=
  match m !! key with
  | None => <[key := LGauge 1 value value value (fmul value value)]> m
  | Some g =>
      <[key := LGauge (w64 (lg_count g + 1)) (fadd (lg_sum g) value)
                 (if fltb value (lg_min g) then value else lg_min g)
                 (if fgtb value (lg_max g) then value else lg_max g)
                 (fadd (lg_ss g) (fmul value value))]> m
  end.

(** one element of the "gauges" of a request: sink.go:39-56 *)
Inductive lval := LG (g : lgauge) | LC (n : Z).
(** sink.go:58-63 *)
Record lpost := LPost { po_time : Z; po_period : Z; po_source : string; po_gauges : gmap string lval }.

Record lib := Lib {
  lb_timers : timers;
  lb_counters : counters;
  lb_posts : list (lpost * bool) }.  (* the requests made, and whether Do reported success *)
Definition lib0 : lib := Lib ∅ ∅ [].

(** float64(nanos) / float64(time.Millisecond) *)
Definition lib_ms (nanos : Z) : f64 := fdiv (fofZ nanos) (fofZ 1000000).

(** sink.go:167-206, as selected by the loop at 149-160 *)
Definition lib_process (c : lconf) (s : lib) (job : string) (e : emission) : lib :=
  match e with
  | WEvent event =>
      let '(k1, k2) := event_keys c job event "count" in
      Lib (lb_timers s) (inc (inc (lb_counters s) k1) k2) (lb_posts s)
  | WEventErr event _ =>
      let '(k1, k2) := event_keys c job event "error.count" in
      Lib (lb_timers s) (inc (inc (lb_counters s) k1) k2) (lb_posts s)
  | WTiming event nanos =>
      let '(k1, k2) := event_keys c job event "timing" in
      Lib (measure (measure (lb_timers s) k1 (lib_ms nanos)) k2 (lib_ms nanos)) (lb_counters s) (lb_posts s)
  | WGauge event value =>
      let '(k1, k2) := event_keys c job event "gauge" in
      Lib (measure (measure (lb_timers s) k1 value) k2 value) (lb_counters s) (lb_posts s)
  | WComplete status nanos =>
      let start := if decide (c_prefix c = "") then "" else c_prefix c +:+ "." in
      let key := start +:+ c_san c job +:+ "." +:+ status_string status +:+ ".timing" in
      Lib (measure (lb_timers s) key (lib_ms nanos)) (lb_counters s) (lb_posts s)
  end.

(** json.Marshal fails on a NaN or an infinity *)
Definition lg_marshals (g : lgauge) : bool := ffinite (lg_sum g) && ffinite (lg_min g) && ffinite (lg_max g) && ffinite (lg_ss g).

(** sink.go:278-287: the gauges of the request; the two loops visit the maps in
    some order, but each key is assigned at most once per loop *)
Definition lib_gauges (s : lib) : gmap string lval := (LC <$> lb_counters s) ∪ (LG <$> lb_timers s).
(** sink.go:265-311 [send]: at most one request; [now] is time.Now().Unix() and
    [ok] whether the request succeeds *)
Definition lib_send (c : lconf) (s : lib) (now : Z) (ok : bool) : list (lpost * bool) :=
  if decide (lb_timers s = ∅ ∧ lb_counters s = ∅) then []
  else if forallb (λ kv, lg_marshals kv.2) (map_to_list (lb_timers s))
  then [(LPost now (Z.quot (c_period c) 1000000000) (c_source c) (lib_gauges s), ok)]
  else [].
(** sink.go:257-263 [purge] *)
Definition lib_purge (c : lconf) (s : lib) (now : Z) (ok : bool) : lib :=
  Lib ∅ ∅ (lb_posts s ++ lib_send c s now ok).

(** what the loop does, one select at a time *)
Inductive lop := LCmd (job : string) (e : emission) | LFlush (now : Z) (ok : bool).
Definition lib_step (c : lconf) (s : lib) (op : lop) : lib :=
  match op with LCmd job e => lib_process c s job e | LFlush now ok => lib_purge c s now ok end.
Definition lib_run (c : lconf) (s : lib) (tr : list lop) : lib := fold_left (lib_step c) tr s.

(** ** The goroutine (sink.go:113-165) *)

(** sink.go:90 *)
Definition lib_buff : Z := 4096.
Inductive lphase := LbRun | LbAck (* 147: blocked on doneDoneChan *) | LbDone.
Record lgo := LGo {
  go_q : list (string * emission);   (* cmdChan, head first *)
  go_phase : lphase;
  go_lib : lib;
  go_wait : list nat }.              (* callers blocked on doneDoneChan, 115 *)
Definition lgo0 : lgo := LGo [] LbRun lib0 [].

Inductive lact :=
  | GEmit (job : string) (e : emission)  (* an Emit call enqueued, 118-136 *)
  | GTake                                (* 149 *)
  | GTick (now : Z) (ok : bool)          (* 161 *)
  | GStop (i : nat)                      (* i's send on doneChan received, 114/146 *)
  | GStopped (i : nat).                  (* i's Stop returned, 115/147 *)
Inductive gostep (c : lconf) : lgo → lact → lgo → Prop :=
  | Go_emit q ph s w job e : Z.of_nat (length q) < lib_buff →
      gostep c (LGo q ph s w) (GEmit job e) (LGo (q ++ [(job, e)]) ph s w)
  | Go_take job e q s w : gostep c (LGo ((job, e) :: q) LbRun s w) GTake (LGo q LbRun (lib_process c s job e) w)
  | Go_tick q s w now ok : gostep c (LGo q LbRun s w) (GTick now ok) (LGo q LbRun (lib_purge c s now ok) w)
  | Go_stop q s w i : i ∉ w → gostep c (LGo q LbRun s w) (GStop i) (LGo q LbAck s (i :: w))
  | Go_stopped q s w i : i ∈ w → gostep c (LGo q LbAck s w) (GStopped i) (LGo q LbDone s (remove Nat.eq_dec i w)).
Inductive gosteps (c : lconf) : lgo → list lact → lgo → Prop :=
  | Gos_nil g : gosteps c g [] g
  | Gos_cons g a g' tr g'' : gostep c g a g' → gosteps c g' tr g'' → gosteps c g (a :: tr) g''.
