(** * Specification: what a StatsD server makes of the datagrams

    The protocol of github.com/statsd/statsd (docs/metric_types.md): a datagram
    holds metrics separated by newlines, each [name:value|type].  A counter
    ("c") adds the value, a timer ("ms") records it, a gauge ("g") takes it,
    except that a value with a sign is added to the gauge. *)
From Verif Require Export SStatsdLoop SStatsd3.

(** before and after the first [c] *)
Fixpoint cut (c : ascii) (s : string) : option (string * string) :=
  match s with
  | "" => None
  | String x s' => if ascii_dec x c then Some ("", s') else '(a, b) ← cut c s'; Some (String x a, b)
  end.
(** the pieces between newlines *)
Fixpoint rows (s : string) : list string :=
  match s with
  | "" => [""]
  | String x s' =>
      if ascii_dec x newline then "" :: rows s'
      else match rows s' with r :: l => String x r :: l | [] => [] end
  end.
Record metric := Metric { m_name : string; m_value : string; m_type : string }.
Definition read_row (l : string) : option metric :=
  '(name, rest) ← cut ":" l; '(value, ty) ← cut "|" rest; Some (Metric name value ty).
Definition metrics (datagrams : list string) : list metric := omap read_row (concat (map rows datagrams)).
Definition values (ty name : string) (datagrams : list string) : list string :=
  omap (λ m, if decide (m_type m = ty ∧ m_name m = name) then Some (m_value m) else None) (metrics datagrams).

(** values that are not numbers are ignored *)
Definition counter (name : string) (datagrams : list string) : Z :=
  foldr Z.add 0 (omap (λ v, match read_num v with Some (n, 1) => Some n | _ => None end) (values "c" name datagrams)).
Definition timings (name : string) (datagrams : list string) : list string := values "ms" name datagrams.
Definition signed (v : string) : bool := match v with String c _ => bool_decide (c = "-"%char ∨ c = "+"%char) | "" => false end.
Definition add_frac (a b : Z * Z) : Z * Z := (a.1 * b.2 + b.1 * a.2, a.2 * b.2).
Definition gauge_step (g : Z * Z) (v : string) : Z * Z :=
  match read_num v with Some q => if signed v then add_frac g q else q | None => g end.
Definition gauge (name : string) (datagrams : list string) : Z * Z := foldl gauge_step (0, 1) (values "g" name datagrams).

Example server_1 :
  let ds := ["a:1|c" +:+ nl +:+ "b:3.5|ms" +:+ nl; "a:2|c" +:+ nl +:+ "g:10|g" +:+ nl +:+ "g:-3|g" +:+ nl +:+ "b:4|ms" +:+ nl +:+ "junk" +:+ nl +:+ "a:x|c" +:+ nl] in
  counter "a" ds = 3 ∧ timings "b" ds = ["3.5"; "4"] ∧ gauge "g" ds = (7, 1) ∧ counter "b" ds = 0.
Proof. done. Qed.

(** ** what was emitted under a name *)
Definition names_of (o : opts) (job event suffix : string) : list string :=
  (if o_skip_top o then [] else [metric_name o [event; suffix]]) ++
  (if o_skip_nested o then [] else [metric_name o [job; event; suffix]]).
(** [a] once for each time [name] is in [names] *)
Definition each {A} (name : string) (names : list string) (a : A) : list A := map (λ _, a) (filter (λ n, n = name) names).

Definition counts (o : opts) (name : string) (l : list cmd) : Z :=
  Z.of_nat (length (concat (map (λ c, match c with
    | CEvent j e => each name (names_of o j e "") ()
    | CEventErr j e _ => each name (names_of o j e "error") ()
    | _ => []
    end) l))).
Definition durations (o : opts) (name : string) (l : list cmd) : list Z :=
  concat (map (λ c, match c with
    | CTiming j e n => each name (names_of o j e "") n
    | CComplete j st n => each name [metric_name o [j; status_string st]] n
    | _ => []
    end) l).
Definition gauged (o : opts) (name : string) (l : list cmd) : list f64 :=
  concat (map (λ c, match c with CGauge j e v => each name (names_of o j e "") v | _ => [] end) l).

(** no line is longer than a datagram *)
Definition all_fit (o : opts) (l : list cmd) : Prop := Forall (λ s, zlen s ≤ 1440) (concat (map (lines_of o) l)).
(** the sanitiser and the number texts keep out the protocol's own bytes *)
Definition clean (o : opts) : Prop := (∀ k, plain_text (o_san o k)) ∧ ∀ v, plain_text (o_short o v).

(** milliseconds, as accurate as C40 *)
Definition ms_of (v : string) (n : Z) : Prop :=
  ∃ x, denotes v x ∧ (10000000 ≤ n → x = IZR (n / 1000000)) ∧ (n < 10000000 → (Rabs (x - IZR n / 1000000) <= 0.0071)%R).
(** durations are int64 *)
Definition fine (l : list cmd) : Prop := Forall (λ c, match c with CTiming _ _ n | CComplete _ _ n => in_int64 n | _ => True end) l.
(** not negative, not NaN, not infinite *)
Definition unsigned (v : f64) : Prop := match v with S754_zero s | S754_finite s _ _ => s = false | _ => False end.

(** ** series: what a line is about *)
Inductive series :=
  | S_events (job : option string) (event : string)
  | S_errors (job : option string) (event : string)
  | S_timings (job : option string) (event : string)
  | S_gauges (job : option string) (event : string)
  | S_completions (job : string) (st : Z).
Global Instance series_dec : EqDecision series.
Proof. solve_decision. Defined.
Definition with_job (job : option string) (l : list string) : list string := match job with Some j => j :: l | None => l end.
Definition series_name (o : opts) (s : series) : string :=
  metric_name o
    match s with
    | S_events j e | S_timings j e | S_gauges j e => with_job j [e]
    | S_errors j e => with_job j [e; "error"]
    | S_completions j st => [j; status_string st]
    end.
Definition series_type (s : series) : string :=
  match s with S_events _ _ | S_errors _ _ => "c" | S_gauges _ _ => "g" | _ => "ms" end.
(** the series a command belongs to *)
Definition series_of (o : opts) (c : cmd) : list series :=
  let pick (s : option string → series) j := (if o_skip_top o then [] else [s None]) ++ (if o_skip_nested o then [] else [s (Some j)]) in
  match c with
  | CEvent j e => pick (λ j, S_events j e) j
  | CEventErr j e _ => pick (λ j, S_errors j e) j
  | CTiming j e _ => pick (λ j, S_timings j e) j
  | CGauge j e _ => pick (λ j, S_gauges j e) j
  | CComplete j st _ => [S_completions j st]
  end.
(** letters, digits, '_' and '$', at least one *)
Definition plain_name (s : string) : Prop := s ≠ "" ∧ ∀ c, c ∈ bytes_of s → name_byte c ∧ c ≠ "."%char.
(** names that do not run into the names of others *)
Definition plain_series (s : series) : Prop :=
  match s with
  | S_events None e | S_errors None e | S_timings None e | S_gauges None e => plain_name e
  | S_events (Some j) e => plain_name j ∧ plain_name e ∧ e ≠ "error"
  | S_timings (Some j) e => plain_name j ∧ plain_name e ∧ e ∉ ["success"; "validation_error"; "panic"; "error"; "junk"]
  | S_errors (Some j) e | S_gauges (Some j) e => plain_name j ∧ plain_name e
  | S_completions j st => plain_name j ∧ 0 ≤ st ≤ 4
  end.
Definition plain_cmds (o : opts) (l : list cmd) : Prop := Forall (λ c, Forall plain_series (series_of o c)) l.
Definition duration_of (c : cmd) : Z := match c with CTiming _ _ n | CComplete _ _ n => n | _ => 0 end.
Definition value_of (c : cmd) : f64 := match c with CGauge _ _ v => v | _ => fofZ 0 end.

(** a sign bit that is set, not NaN, not infinite *)
Definition below_zero (v : f64) : Prop := match v with S754_zero s | S754_finite s _ _ => s = true | _ => False end.
Definition f_sum (l : list f64) : R := fold_right Rplus 0%R (map fval l).
