(** * Pointer-level model of the aggregations
      (interval_aggregation.go, interval_aggregation_clone.go,
       interval_aggregation_merge.go, aggregator.go)

    A heap of cells; a pointer or a Go map is the address of a cell.  Every
    allocation, load and store of the Go code on these structures is one
    operation here, and every store is recorded in a log.

    Simplifications.
    - One cell per struct and one cell per map, so a store to a field is a
      store to the whole struct.
    - The goroutine-private [aggregator] struct is a value.
    - Errors kept as samples are values (MAgg.v); their mutable Emitted flag
      is not part of them.
    - Memory is never reclaimed, and an allocation takes an address that was
      never used. *)
From Verif Require Export MMerge.

Definition addr : Type := positive.

(** interval_aggregation.go:25-30: the embedded struct holds four maps *)
Record hmaps := HMaps { hm_timers : addr; hm_gauges : addr; hm_events : addr; hm_errs : addr }.
(** interval_aggregation.go:32-41 *)
Record hjob := HJob {
  hj_maps : hmaps; hj_timer : timer;
  hj_success : Z; hj_verror : Z; hj_panic : Z; hj_error : Z; hj_junk : Z }.
(** interval_aggregation.go:9-23 *)
Record hia := HIA { hi_start : Z; hi_serial : Z; hi_jobs : addr; hi_maps : hmaps }.

Inductive cell :=
  | VTimer (t : timer)
  | VErrc (e : errc)
  | VTimers (m : gmap string addr)
  | VGauges (m : gmap string f64)
  | VEvents (m : gmap string Z)
  | VErrs (m : gmap string addr)
  | VJobs (m : gmap string addr)
  | VJob (j : hjob)
  | VIa (i : hia)
  | VArr (l : list (option addr)).   (* the array behind a []*IntervalAggregation *)

Definition heap : Type := gmap addr cell.

(** ** The machine

    [s_log] lists the addresses stored to, most recent first; [s_tick] counts
    the [range] loops over maps.  [orders] is the iteration order the run time
    chooses for each of them. *)
Record st := St { s_heap : heap; s_log : list addr; s_tick : nat }.
Definition orders : Type := nat → ∀ V : Type, gmap string V → list (string * V).
Definition fair (o : orders) : Prop := ∀ n V (m : gmap string V), o n V m ≡ₚ map_to_list m.

Definition M (A : Type) : Type := orders → st → res (st * A).
Definition hret {A} (a : A) : M A := λ o s, Ok (s, a).
Definition hbind {A B} (c : M A) (k : A → M B) : M B :=
  λ o s, r ←r c o s; k r.2 o r.1.
Definition hcrash {A} (why : string) : M A := λ o s, Crash why.
Notation "x ←h e ; k" := (hbind e (λ x, k)) (at level 20, e at level 100, k at level 200, right associativity).

Definition halloc (c : cell) : M addr := λ o s,
  let p := fresh (dom (s_heap s)) in
  Ok (St (<[p := c]> (s_heap s)) (s_log s) (s_tick s), p).
Definition hload (p : addr) : M cell := λ o s,
  match s_heap s !! p with
  | Some c => Ok (s, c)
  | None => Crash "invalid memory address"
  end.
Definition hstore (p : addr) (c : cell) : M unit := λ o s,
  match s_heap s !! p with
  | Some _ => Ok (St (<[p := c]> (s_heap s)) (p :: s_log s) (s_tick s), tt)
  | None => Crash "invalid memory address"
  end.
(** the entries of a map in the order of this [range] loop *)
Definition hrange {V} (m : gmap string V) : M (list (string * V)) := λ o s,
  Ok (St (s_heap s) (s_log s) (S (s_tick s)), o (s_tick s) V m).
(** [for _, x := range l { a = body(a, x) }] *)
Fixpoint hfold {A B} (body : A → B → M A) (l : list B) (a : A) : M A :=
  match l with
  | [] => hret a
  | x :: l' => a' ←h body a x; hfold body l' a'
  end.

(** typed loads *)
Definition bad {A} : M A := hcrash "cell of another type".
Definition load_timer (p : addr) : M timer := c ←h hload p; match c with VTimer t => hret t | _ => bad end.
Definition load_errc (p : addr) : M errc := c ←h hload p; match c with VErrc t => hret t | _ => bad end.
Definition load_timers (p : addr) : M (gmap string addr) := c ←h hload p; match c with VTimers t => hret t | _ => bad end.
Definition load_gauges (p : addr) : M (gmap string f64) := c ←h hload p; match c with VGauges t => hret t | _ => bad end.
Definition load_events (p : addr) : M (gmap string Z) := c ←h hload p; match c with VEvents t => hret t | _ => bad end.
Definition load_errs (p : addr) : M (gmap string addr) := c ←h hload p; match c with VErrs t => hret t | _ => bad end.
Definition load_jobs (p : addr) : M (gmap string addr) := c ←h hload p; match c with VJobs t => hret t | _ => bad end.
Definition load_job (p : addr) : M hjob := c ←h hload p; match c with VJob t => hret t | _ => bad end.
Definition load_ia (p : addr) : M hia := c ←h hload p; match c with VIa t => hret t | _ => bad end.
Definition load_arr (p : addr) : M (list (option addr)) := c ←h hload p; match c with VArr t => hret t | _ => bad end.

(** ** interval_aggregation.go *)

(** interval_aggregation.go:69-74 [initAggregationMaps] *)
Definition h_init_maps : M hmaps :=
  t ←h halloc (VTimers ∅);
  g ←h halloc (VGauges ∅);
  e ←h halloc (VEvents ∅);
  r ←h halloc (VErrs ∅);
  hret (HMaps t g e r).

(** interval_aggregation.go:59-67 [NewIntervalAggregation] *)
Definition h_new_ia (start : Z) : M addr :=
  jobs ←h halloc (VJobs ∅);
  maps ←h h_init_maps;
  halloc (VIa (HIA start 0 jobs maps)).

(** interval_aggregation.go:76-83 [getCounterErrs] *)
Definition h_get_errs (am : hmaps) (event : string) : M addr :=
  m ←h load_errs (hm_errs am);
  match m !! event with
  | Some ce => hret ce
  | None =>
      ce ←h halloc (VErrc errc0);
      _ ←h hstore (hm_errs am) (VErrs (<[event := ce]> m));
      hret ce
  end.

(** interval_aggregation.go:85-92 [getTimers] *)
Definition h_get_timers (am : hmaps) (event : string) : M addr :=
  m ←h load_timers (hm_timers am);
  match m !! event with
  | Some t => hret t
  | None =>
      t ←h halloc (VTimer timer0);
      _ ←h hstore (hm_timers am) (VTimers (<[event := t]> m));
      hret t
  end.

(** interval_aggregation.go:94-97 [incrementAndAddError] through a pointer *)
Definition h_increment_and_add_error (p : addr) (e : option err) : M unit :=
  ec ←h load_errc p; hstore p (VErrc (increment_and_add_error ec e)).

(** interval_aggregation.go:129-137 [getJobAggregation] *)
Definition h_get_job (ia : addr) (job : string) : M addr :=
  i ←h load_ia ia;
  m ←h load_jobs (hi_jobs i);
  match m !! job with
  | Some p => hret p
  | None =>
      maps ←h h_init_maps;
      p ←h halloc (VJob (HJob maps timer0 0 0 0 0 0));
      _ ←h hstore (hi_jobs i) (VJobs (<[job := p]> m));
      hret p
  end.

(** interval_aggregation.go:139-150 [TimerAggregation.ingest] through a pointer *)
Definition h_timer_ingest (p : addr) (nanos : Z) : M unit :=
  t ←h load_timer p; hstore p (VTimer (timer_ingest t nanos)).

(** interval_aggregation.go:152-165 [JobAggregation.ingest] through a pointer;
    the counters are those of the value-level function *)
Definition h_job_ingest (p : addr) (st nanos : Z) : M unit :=
  j ←h load_job p;
  let v := job_ingest (JobAgg amaps0 (hj_timer j) (hj_success j) (hj_verror j) (hj_panic j) (hj_error j) (hj_junk j)) st nanos in
  hstore p (VJob (HJob (hj_maps j) (j_timer v) (j_success v) (j_verror v) (j_panic v) (j_error v) (j_junk v))).

(** ** interval_aggregation_clone.go *)

(** interval_aggregation_clone.go:42-45, 47-50 [TimerAggregation.Clone],
    [ErrorCounter.Clone]: a copy of the struct *)
Definition h_clone_timer (p : addr) : M addr := t ←h load_timer p; halloc (VTimer t).
Definition h_clone_errc (p : addr) : M addr := t ←h load_errc p; halloc (VErrc t).

(** interval_aggregation_clone.go:18-40 [aggregationMaps.Clone] *)
Definition h_clone_maps (am : hmaps) : M hmaps :=
  dup ←h h_init_maps;
  ev ←h load_events (hm_events am);
  l ←h hrange ev;
  _ ←h hfold (λ _ kv,                                             (* 23-25 *)
         m ←h load_events (hm_events dup);
         hstore (hm_events dup) (VEvents (<[kv.1 := kv.2]> m))) l tt;
  ga ←h load_gauges (hm_gauges am);
  l ←h hrange ga;
  _ ←h hfold (λ _ kv,                                             (* 27-29 *)
         m ←h load_gauges (hm_gauges dup);
         hstore (hm_gauges dup) (VGauges (<[kv.1 := kv.2]> m))) l tt;
  ti ←h load_timers (hm_timers am);
  l ←h hrange ti;
  _ ←h hfold (λ _ kv,                                             (* 31-33 *)
         q ←h h_clone_timer kv.2;
         m ←h load_timers (hm_timers dup);
         hstore (hm_timers dup) (VTimers (<[kv.1 := q]> m))) l tt;
  er ←h load_errs (hm_errs am);
  l ←h hrange er;
  _ ←h hfold (λ _ kv,                                             (* 35-37 *)
         q ←h h_clone_errc kv.2;
         m ←h load_errs (hm_errs dup);
         hstore (hm_errs dup) (VErrs (<[kv.1 := q]> m))) l tt;
  hret dup.

(** interval_aggregation_clone.go:52-65 [JobAggregation.Clone] *)
Definition h_clone_job (p : addr) : M addr :=
  j ←h load_job p;
  maps ←h h_clone_maps (hj_maps j);
  halloc (VJob (HJob maps (hj_timer j) (hj_success j) (hj_verror j) (hj_panic j) (hj_error j) (hj_junk j))).

(** interval_aggregation_clone.go:4-16 [IntervalAggregation.Clone] *)
Definition h_clone_ia (p : addr) : M addr :=
  i ←h load_ia p;
  maps ←h h_clone_maps (hi_maps i);
  jobs ←h halloc (VJobs ∅);
  pm ←h load_jobs (hi_jobs i);
  l ←h hrange pm;
  _ ←h hfold (λ _ kv,                                             (* 11-13 *)
         q ←h h_clone_job kv.2;
         m ←h load_jobs jobs;
         hstore jobs (VJobs (<[kv.1 := q]> m))) l tt;
  halloc (VIa (HIA (hi_start i) (hi_serial i) jobs maps)).

(** ** interval_aggregation_merge.go *)

(** [TimerAggregation.merge] (29-39) writes only through its receiver: the new
    struct is that of MMerge.v. *)

(** interval_aggregation_merge.go:41-72 [aggregationMaps.merge] *)
Definition h_merge_maps (into from : hmaps) : M unit :=
  ev ←h load_events (hm_events from);
  l ←h hrange ev;
  _ ←h hfold (λ _ kv,                                             (* 42-44 *)
         m ←h load_events (hm_events into);
         hstore (hm_events into) (VEvents (<[kv.1 := w64 (mget m kv.1 0 + kv.2)]> m))) l tt;
  ga ←h load_gauges (hm_gauges from);
  l ←h hrange ga;
  _ ←h hfold (λ _ kv,                                             (* 46-48 *)
         m ←h load_gauges (hm_gauges into);
         hstore (hm_gauges into) (VGauges (<[kv.1 := kv.2]> m))) l tt;
  ti ←h load_timers (hm_timers from);
  l ←h hrange ti;
  _ ←h hfold (λ _ kv,                                             (* 50-56 *)
         m ←h load_timers (hm_timers into);
         match m !! kv.1 with
         | Some q =>
             a ←h load_timer q;
             b ←h load_timer kv.2;
             hstore q (VTimer (timer_merge a b))
         | None =>
             q ←h h_clone_timer kv.2;
             hstore (hm_timers into) (VTimers (<[kv.1 := q]> m))
         end) l tt;
  er ←h load_errs (hm_errs from);
  l ←h hrange er;
  hfold (λ _ kv,                                                  (* 58-71 *)
         m ←h load_errs (hm_errs into);
         match m !! kv.1 with
         | Some q =>
             a ←h load_errc q;
             b ←h load_errc kv.2;
             _ ←h hstore q (VErrc (Errc (w64 (ec_count a + ec_count b)) (ec_samples a) (ec_index a)));
             hfold (λ _ e, match e with
                           | Some _ => a ←h load_errc q; hstore q (VErrc (add_error a e))
                           | None => hret tt
                           end) (ec_samples b) tt
         | None =>
             q ←h h_clone_errc kv.2;
             hstore (hm_errs into) (VErrs (<[kv.1 := q]> m))
         end) l tt.

(** interval_aggregation_merge.go:19-27 [JobAggregation.merge] *)
Definition h_merge_job (into from : addr) : M unit :=
  a ←h load_job into;
  b ←h load_job from;
  _ ←h h_merge_maps (hj_maps a) (hj_maps b);
  a ←h load_job into;
  b ←h load_job from;
  hstore into (VJob (HJob (hj_maps a) (timer_merge (hj_timer a) (hj_timer b))
    (w64 (hj_success a + hj_success b)) (w64 (hj_verror a + hj_verror b))
    (w64 (hj_panic a + hj_panic b)) (w64 (hj_error a + hj_error b)) (w64 (hj_junk a + hj_junk b)))).

(** [ia.SerialNumber++] *)
Definition h_bump (p : addr) : M unit :=
  i ←h load_ia p; hstore p (VIa (HIA (hi_start i) (w64 (hi_serial i + 1)) (hi_jobs i) (hi_maps i))).

(** interval_aggregation_merge.go:5-17 [IntervalAggregation.Merge] *)
Definition h_merge_ia (into from : addr) : M unit :=
  a ←h load_ia into;
  b ←h load_ia from;
  _ ←h h_merge_maps (hi_maps a) (hi_maps b);
  pm ←h load_jobs (hi_jobs b);
  l ←h hrange pm;
  _ ←h hfold (λ _ kv,                                             (* 8-14 *)
         m ←h load_jobs (hi_jobs a);
         match m !! kv.1 with
         | Some q => h_merge_job q kv.2
         | None =>
             q ←h h_clone_job kv.2;
             hstore (hi_jobs a) (VJobs (<[kv.1 := q]> m))
         end) l tt;
  h_bump into.

(** ** aggregator.go *)

(** a []*IntervalAggregation: its array, length and capacity (offset 0) *)
Record slice := Slice { sl_arr : addr; sl_len : nat; sl_cap : nat }.

(** make([]*IntervalAggregation, 0, cap) *)
Definition h_make (cap : nat) : M slice :=
  p ←h halloc (VArr (replicate cap None)); hret (Slice p 0 cap).
(** s[i]; every element below the length has been written *)
Definition h_index (s : slice) (i : nat) : M addr :=
  if Nat.ltb i (sl_len s) then
    l ←h load_arr (sl_arr s);
    match l !! i with Some (Some p) => hret p | _ => bad end
  else hcrash "index out of range".
(** s[i] = p *)
Definition h_set (s : slice) (i : nat) (p : addr) : M unit :=
  if Nat.ltb i (sl_len s) then
    l ←h load_arr (sl_arr s); hstore (sl_arr s) (VArr (<[i := Some p]> l))
  else hcrash "index out of range".
(** append(s, p): in place while there is capacity, otherwise a larger array *)
Definition h_append (s : slice) (p : addr) : M slice :=
  l ←h load_arr (sl_arr s);
  if Nat.ltb (sl_len s) (sl_cap s) then
    _ ←h hstore (sl_arr s) (VArr (<[sl_len s := Some p]> l));
    hret (Slice (sl_arr s) (S (sl_len s)) (sl_cap s))
  else
    let cap := S (2 * sl_cap s)%nat in
    q ←h halloc (VArr (take (sl_len s) l ++ Some p :: replicate (cap - S (sl_len s)) None));
    hret (Slice q (S (sl_len s)) cap).

(** aggregator.go:7-20 [aggregator] *)
Record haggr := HAggr { ha_dur : Z; ha_retain : Z; ha_max : Z; ha_ints : slice }.
Definition ha_with (a : haggr) (s : slice) : haggr := HAggr (ha_dur a) (ha_retain a) (ha_max a) s.

(** aggregator.go:56-64 [newAggregator] *)
Definition h_new_aggregator (dur retain : Z) : M haggr :=
  if dur =? 0 then hcrash "integer divide by zero"
  else
    let mx := Z.quot retain dur in
    if mx <? 0 then hcrash "makeslice: cap out of range"
    else s ←h h_make (Z.to_nat mx); hret (HAggr dur retain mx s).

(** aggregator.go:135-151 [createIntervalAggregation] *)
Definition h_create (a : haggr) (start : Z) : M (haggr * addr) :=
  current ←h h_new_ia start;
  let n := sl_len (ha_ints a) in
  if Z.of_nat n =? ha_max a then
    _ ←h hfold (λ _ i, p ←h h_index (ha_ints a) i; h_set (ha_ints a) (i - 1) p) (seq 1 (n - 1)) tt;
    if Nat.eqb n 0 then hcrash "index out of range [-1]"
    else _ ←h h_set (ha_ints a) (n - 1) current; hret (a, current)
  else
    s ←h h_append (ha_ints a) current;
    hret (ha_with a s, current).

(** aggregator.go:124-133 [getIntervalAggregation] *)
Definition h_get (a : haggr) (now : Z) : M (haggr * addr) :=
  let start := truncate (ha_dur a) now in
  let n := sl_len (ha_ints a) in
  if Nat.ltb 0 n then
    p ←h h_index (ha_ints a) (n - 1);
    i ←h load_ia p;
    if hi_start i =? start then hret (a, p) else h_create a start
  else h_create a start.

(** aggregator.go:66-79 [memorySafeIntervals] *)
Definition h_memory_safe (a : haggr) (now : Z) : M (haggr * slice) :=
  out ←h h_make (sl_len (ha_ints a));
  r ←h h_get a now;
  let a := r.1 in
  let cur := r.2 in
  out ←h hfold (λ out i,
           p ←h h_index (ha_ints a) i;
           if Pos.eqb p cur then q ←h h_clone_ia p; h_append out q
           else h_append out p) (seq 0 (sl_len (ha_ints a))) out;
  hret (a, out).

(** [m.Events[event] = m.Events[event] + 1], aggregator.go:83,85 *)
Definition h_inc_event (am : hmaps) (event : string) : M unit :=
  m ←h load_events (hm_events am);
  hstore (hm_events am) (VEvents (<[event := w64 (mget m event 0 + 1)]> m)).
(** aggregator.go:111,113 *)
Definition h_set_gauge (am : hmaps) (event : string) (v : f64) : M unit :=
  m ←h load_gauges (hm_gauges am);
  hstore (hm_gauges am) (VGauges (<[event := v]> m)).

(** aggregator.go:81-122: the part of each Emit method after
    [getIntervalAggregation] *)
Definition h_apply (p : addr) (c : cmd) : M unit :=
  match c with
  | CEvent job event =>                                           (* 81-87 *)
      i ←h load_ia p;
      _ ←h h_inc_event (hi_maps i) event;
      q ←h h_get_job p job;
      j ←h load_job q;
      _ ←h h_inc_event (hj_maps j) event;
      h_bump p
  | CEventErr job event e =>                                      (* 89-97 *)
      i ←h load_ia p;
      ec ←h h_get_errs (hi_maps i) event;
      _ ←h h_increment_and_add_error ec e;
      q ←h h_get_job p job;
      j ←h load_job q;
      jec ←h h_get_errs (hj_maps j) event;
      _ ←h h_increment_and_add_error jec e;
      h_bump p
  | CTiming job event nanos =>                                    (* 99-107 *)
      i ←h load_ia p;
      t ←h h_get_timers (hi_maps i) event;
      _ ←h h_timer_ingest t nanos;
      q ←h h_get_job p job;
      j ←h load_job q;
      jt ←h h_get_timers (hj_maps j) event;
      _ ←h h_timer_ingest jt nanos;
      h_bump p
  | CGauge job event v =>                                         (* 109-115 *)
      i ←h load_ia p;
      _ ←h h_set_gauge (hi_maps i) event v;
      q ←h h_get_job p job;
      j ←h load_job q;
      _ ←h h_set_gauge (hj_maps j) event v;
      h_bump p
  | CComplete job st nanos =>                                     (* 117-122 *)
      q ←h h_get_job p job;
      _ ←h h_job_ingest q st nanos;
      h_bump p
  end.

(** aggregator.go:36-51: one iteration of the loop; a read answers with the
    slice [memorySafeIntervals] made *)
Definition h_step (a : haggr) (now : Z) (o : aop) : M (haggr * option slice) :=
  match o with
  | OpCmd c => r ←h h_get a now; _ ←h h_apply r.2 c; hret (r.1, None)
  | OpTick => r ←h h_get a now; hret (r.1, None)
  | OpRead => r ←h h_memory_safe a now; hret (r.1, Some r.2)
  end.

(** the loop over a history *)
Fixpoint h_run (a : haggr) (hist : list (Z * aop)) : M haggr :=
  match hist with
  | [] => hret a
  | (t, o) :: hist' => r ←h h_step a t o; h_run r.1 hist'
  end.
