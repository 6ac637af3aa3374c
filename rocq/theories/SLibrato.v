(** * What the Librato sink should send (C48-C50, C83-C85) *)
From Verif Require Export SUtf8 MLibrato SWriter.

(** ** Names *)
Definition dotted (l : list string) : string := String.concat "." l.
Definition full (c : lconf) (l : list string) : string :=
  dotted (if decide (c_prefix c = "") then l else c_prefix c :: l).

(** the counters an emission adds one to *)
Definition counted (c : lconf) (job : string) (e : emission) : list string :=
  match e with
  | WEvent ev => [full c [c_san c ev; "count"]; full c [c_san c job; c_san c ev; "count"]]
  | WEventErr ev _ => [full c [c_san c ev; "error"; "count"]; full c [c_san c job; c_san c ev; "error"; "count"]]
  | _ => []
  end.
(** the gauges it adds a measurement to; durations are in milliseconds *)
Definition measured (c : lconf) (job : string) (e : emission) : list (string * f64) :=
  match e with
  | WTiming ev n => let ms := fdiv (fofZ n) (fofZ 1000000) in
      [(full c [c_san c ev; "timing"], ms); (full c [c_san c job; c_san c ev; "timing"], ms)]
  | WGauge ev v => [(full c [c_san c ev; "gauge"], v); (full c [c_san c job; c_san c ev; "gauge"], v)]
  | WComplete st n => let ms := fdiv (fofZ n) (fofZ 1000000) in
      [(full c [c_san c job; match st with 0 => "success" | 1 => "validation_error" | 2 => "panic" | 3 => "error" | 4 => "junk" | _ => "" end; "timing"], ms)]
  | _ => []
  end.
Definition lcmds := list (string * emission).
Definition hits (c : lconf) (k : string) (cmds : lcmds) : Z :=
  Z.of_nat (length (filter (λ x, x = k) (concat (map (λ '(job, e), counted c job e) cmds)))).
Definition samples (c : lconf) (k : string) (cmds : lcmds) : list f64 :=
  map snd (filter (λ x : string * f64, x.1 = k) (concat (map (λ '(job, e), measured c job e) cmds))).

(** count, sum, extremes and sum of squares of a non-empty list, summed in order *)
Definition square (x : f64) : f64 := fmul x x.
Definition summarises (l : list f64) (g : lgauge) : Prop :=
  ∃ x l', l = x :: l' ∧
    lg_count g = w64 (Z.of_nat (length l)) ∧
    lg_sum g = fold_left fadd l' x ∧
    lg_ss g = fold_left fadd (map square l') (square x) ∧
    (lg_min g ∈ l ∧ ∀ y, y ∈ l → fltb y (lg_min g) = false) ∧
    (lg_max g ∈ l ∧ ∀ y, y ∈ l → fltb (lg_max g) y = false).

(** the batch for the commands [cmds] *)
Definition batch (c : lconf) (cmds : lcmds) (b : gmap string lval) : Prop :=
  ∀ k, (hits c k cmds = 0 ∧ samples c k cmds = [] ∧ b !! k = None) ∨
       (hits c k cmds > 0 ∧ samples c k cmds = [] ∧ b !! k = Some (LC (w64 (hits c k cmds)))) ∨
       (hits c k cmds = 0 ∧ ∃ g, summarises (samples c k cmds) g ∧ b !! k = Some (LG g)).

(** the commands processed since the last flush *)
Fixpoint since_flush (acc : lcmds) (tr : list lop) : lcmds :=
  match tr with
  | [] => acc
  | LCmd job e :: tr => since_flush (acc ++ [(job, e)]) tr
  | LFlush _ _ :: tr => since_flush [] tr
  end.

(** JSON has no NaN and no infinity *)
Definition finite (x : f64) : Prop := x ≠ S754_nan ∧ ∀ b, x ≠ S754_infinity b.
Definition representable (b : gmap string lval) : Prop :=
  ∀ k g, b !! k = Some (LG g) → finite (lg_sum g) ∧ finite (lg_min g) ∧ finite (lg_max g) ∧ finite (lg_ss g).

(** the characters Librato allows *)
Definition allowed (c : ascii) : Prop :=
  c ∈ bytes_of "ABCDEFGHIJKLMNOPQRSTUVWXYZabcdefghijklmnopqrstuvwxyz0123456789.:-_".

(** ** The goroutine *)

(** commands in the order they were enqueued; those taken; what the loop did *)
Fixpoint emitted (tr : list lact) : lcmds :=
  match tr with [] => [] | GEmit job e :: tr => (job, e) :: emitted tr | _ :: tr => emitted tr end.
Fixpoint loop_ops (queue : lcmds) (tr : list lact) : list lop :=
  match tr with
  | [] => []
  | GEmit job e :: tr => loop_ops (queue ++ [(job, e)]) tr
  | GTake :: tr => match queue with [] => [] | (job, e) :: q => LCmd job e :: loop_ops q tr end
  | GTick now ok :: tr => LFlush now ok :: loop_ops queue tr
  | _ :: tr => loop_ops queue tr
  end.
Definition cmds_of (tr : list lop) : lcmds :=
  concat (map (λ op, match op with LCmd job e => [(job, e)] | _ => [] end) tr).
Definition lstopped (tr : list lact) : Prop := ∃ i, GStopped i ∈ tr.

(** ** Metrics: what a name stands for; the names in them are sanitised *)
Inductive metric :=
  | M_event (ev : string) | M_job_event (job ev : string)
  | M_err (ev : string) | M_job_err (job ev : string)
  | M_timing (ev : string) | M_job_timing (job ev : string)
  | M_gauge (ev : string) | M_job_gauge (job ev : string)
  | M_complete (job status : string).
Definition metric_name (c : lconf) (m : metric) : string :=
  full c match m with
         | M_event ev => [ev; "count"] | M_job_event job ev => [job; ev; "count"]
         | M_err ev => [ev; "error"; "count"] | M_job_err job ev => [job; ev; "error"; "count"]
         | M_timing ev => [ev; "timing"] | M_job_timing job ev => [job; ev; "timing"]
         | M_gauge ev => [ev; "gauge"] | M_job_gauge job ev => [job; ev; "gauge"]
         | M_complete job st => [job; st; "timing"]
         end.
(** the metrics an emission is part of *)
Definition metrics_of (c : lconf) (job : string) (e : emission) : list metric :=
  match e with
  | WEvent ev => [M_event (c_san c ev); M_job_event (c_san c job) (c_san c ev)]
  | WEventErr ev _ => [M_err (c_san c ev); M_job_err (c_san c job) (c_san c ev)]
  | WTiming ev _ => [M_timing (c_san c ev); M_job_timing (c_san c job) (c_san c ev)]
  | WGauge ev _ => [M_gauge (c_san c ev); M_job_gauge (c_san c job) (c_san c ev)]
  | WComplete st _ => [M_complete (c_san c job) (match st with 0 => "success" | 1 => "validation_error" | 2 => "panic" | 3 => "error" | 4 => "junk" | _ => "" end)]
  end.
Definition dot_free (s : string) : Prop := "."%char ∉ bytes_of s.
(** names that do not run into the names of others *)
Definition plain_event (ev : string) : Prop :=
  dot_free ev ∧ ev ∉ [""; "success"; "validation_error"; "panic"; "error"; "junk"].
Definition plain_metric (m : metric) : Prop :=
  match m with
  | M_event ev | M_err ev | M_timing ev | M_gauge ev => plain_event ev
  | M_job_event job ev | M_job_err job ev | M_job_timing job ev | M_job_gauge job ev => dot_free job ∧ plain_event ev
  | M_complete job st => dot_free job ∧ st ∈ [""; "success"; "validation_error"; "panic"; "error"; "junk"]
  end.

(** what a metric's values are, and what it is about, as its name says it *)
Inductive sort := Counts | Durations | Values.
Definition sort_of (m : metric) : sort :=
  match m with
  | M_event _ | M_job_event _ _ | M_err _ | M_job_err _ _ => Counts
  | M_timing _ | M_job_timing _ _ | M_complete _ _ => Durations
  | M_gauge _ | M_job_gauge _ _ => Values
  end.
Definition about (m : metric) : string :=
  match m with
  | M_event ev | M_timing ev | M_gauge ev => ev
  | M_job_event job ev | M_job_timing job ev | M_job_gauge job ev => job +:+ "." +:+ ev
  | M_err ev => ev +:+ ".error"
  | M_job_err job ev => job +:+ "." +:+ ev +:+ ".error"
  | M_complete job st => job +:+ "." +:+ st
  end.