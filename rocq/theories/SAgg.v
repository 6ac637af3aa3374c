(** * Specification vocabulary for aggregation

    What the numbers shown by /health should be, in terms of the list of
    commands alone.  No definition here uses the model's functions. *)
From Verif Require Export MAgg.

(** The commands of a history that were processed while the clock was in the
    interval [s, s+d). *)
Definition cmds_in (d s : Z) (h : list (Z * aop)) : list cmd :=
  omap (λ to : Z * aop,
    match to.2 with
    | OpCmd c => if bool_decide (s ≤ to.1 < s + d) then Some c else None
    | _ => None
    end) h.

Definition cmd_job (c : cmd) : string :=
  match c with
  | CEvent j _ | CEventErr j _ _ | CTiming j _ _ | CGauge j _ _ | CComplete j _ _ => j
  end.

(** the commands carrying job name [j] *)
Definition of_job (j : string) (l : list cmd) : list cmd := filter (λ c, cmd_job c = j) l.

(** occurrences of event [e], with multiplicity *)
Definition events_of (e : string) (l : list cmd) : list unit :=
  omap (λ c, match c with CEvent _ e' => if bool_decide (e = e') then Some tt else None | _ => None end) l.
Definition errors_of (e : string) (l : list cmd) : list (option err) :=
  omap (λ c, match c with CEventErr _ e' x => if bool_decide (e = e') then Some x else None | _ => None end) l.
Definition timings_of (e : string) (l : list cmd) : list Z :=
  omap (λ c, match c with CTiming _ e' n => if bool_decide (e = e') then Some n else None | _ => None end) l.
Definition gauges_of (e : string) (l : list cmd) : list f64 :=
  omap (λ c, match c with CGauge _ e' v => if bool_decide (e = e') then Some v else None | _ => None end) l.
(** (status, nanoseconds) of the completions *)
Definition completions_of (l : list cmd) : list (Z * Z) :=
  omap (λ c, match c with CComplete _ st n => Some (st, n) | _ => None end) l.
Definition completions_with (st : Z) (l : list cmd) : list (Z * Z) :=
  filter (λ p, p.1 = st) (completions_of l).

(** a number of occurrences, as an int64 *)
Definition i64 (n : nat) : Z := w64 (Z.of_nat n).
(** a counter map entry: absent when there is no occurrence *)
Definition counter_entry (n : nat) : option Z := if decide (n = 0%nat) then None else Some (i64 n).

Definition zsum (l : list Z) : Z := foldr Z.add 0 l.

Definition is_min (m : Z) (l : list Z) : Prop := m ∈ l ∧ ∀ x, x ∈ l → m ≤ x.
Definition is_max (m : Z) (l : list Z) : Prop := m ∈ l ∧ ∀ x, x ∈ l → x ≤ m.

(** The double sum of the squares, accumulated left to right from zero. *)
Definition sum_squares (l : list Z) : f64 :=
  fold_left (λ acc n, fadd acc (fmul (fofZ n) (fofZ n))) l f0.

(** [t] summarises the non-empty list of measurements [l]. *)
Record summarises (l : list Z) (t : timer) : Prop := {
  sm_count : t_count t = i64 (length l);
  sm_sum : t_sum t = w64 (zsum l);
  sm_ss : t_ss t = sum_squares l;
  sm_min : is_min (t_min t) l;
  sm_max : is_max (t_max t) l }.

(** consecutive duplicates removed *)
Fixpoint squash {A} `{EqDecision A} (l : list A) : list A :=
  match l with
  | [] => []
  | x :: l' =>
      match l' with
      | [] => [x]
      | y :: _ => if decide (x = y) then squash l' else x :: squash l'
      end
  end.

(** the last [n] elements *)
Definition lastn {A} (n : nat) (l : list A) : list A := drop (length l - n) l.

(** A clock that never goes back. *)
Definition clock_monotone {A} (h : list (Z * A)) : Prop := StronglySorted Z.le (map fst h).

(** multiples of the interval length below the clock readings, in order *)
Definition slot (d t : Z) : Z := d * (t `div` d).

(** total of a per-job number over all the jobs of an interval *)
Definition over_jobs (f : jobagg → Z) (a : ia) : Z :=
  zsum (map (λ kv : string * jobagg, f kv.2) (map_to_list (ia_jobs a))).

(** What a sink made with interval [d] and retention [retain], whose aggregator
    has gone through history [h], answers to a read at time [t]. *)
Definition get_metrics (d retain : Z) (h : list (Z * aop)) (t : Z) : res (list ia) :=
  a0 ←r new_aggregator d retain;
  a ←r agg_run a0 h;
  r ←r agg_step a t OpRead;
  match r.2 with Some out => Ok out | None => Crash "no answer" end.
