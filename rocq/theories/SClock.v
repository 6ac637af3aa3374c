(** * What a sink should show whatever its clock does (C136)

    Between two changes of the interval the clock is in, the aggregator is on a
    visit to that interval; a clock that steps back makes it visit an interval
    again. *)
From Verif Require Export SConserve SPolling.

(** the history [h] cut into visits, each with the start of its interval *)
Record visits (d : Z) (h : list (Z * aop)) (vs : list (Z * list (Z * aop))) : Prop := {
  vi_all : concat (map snd vs) = h;
  vi_in : ∀ s g, (s, g) ∈ vs → g ≠ [] ∧ ∀ x, x ∈ g → slot d x.1 = s;
  vi_next : ∀ vs1 s1 g1 s2 g2 vs2, vs = vs1 ++ (s1, g1) :: (s2, g2) :: vs2 → s1 ≠ s2 }.

(** the interval [i] says what the commands [cs] amount to: nothing less,
    nothing else *)
Record told (cs : list cmd) (i : ia) : Prop := {
  to_serial : ia_serial i = i64 (length cs);
  to_events : ∀ e, am_events (ia_maps i) !! e = counter_entry (length (events_of e cs));
  to_gauges : ∀ e, am_gauges (ia_maps i) !! e = last (gauges_of e cs);
  to_errors : ∀ e, match am_errs (ia_maps i) !! e with
    | None => errors_of e cs = []
    | Some ec => errors_of e cs ≠ [] ∧ ec_count ec = i64 (length (errors_of e cs)) ∧
        ∀ xs, errors_of e cs = map Some xs → get_error_samples ec ≡ₚ lastn 5 (squash xs)
    end;
  to_timers : ∀ e, Z.of_nat (length (timings_of e cs)) ≤ 2 ^ 64 →
    match am_timers (ia_maps i) !! e with
    | None => timings_of e cs = []
    | Some tm => timings_of e cs ≠ [] ∧ summarises (timings_of e cs) tm
    end;
  to_jobs : ∀ j, let l := of_job j cs in Z.of_nat (length l) ≤ 2 ^ 64 →
    match ia_jobs i !! j with
    | None => l = []
    | Some ja => l ≠ [] ∧
        (∀ e, am_events (j_maps ja) !! e = counter_entry (length (events_of e l))) ∧
        (∀ e, am_gauges (j_maps ja) !! e = last (gauges_of e l)) ∧
        (∀ e, ec_count <$> am_errs (j_maps ja) !! e = counter_entry (length (errors_of e l))) ∧
        (∀ e, match am_timers (j_maps ja) !! e with
              | None => timings_of e l = []
              | Some tm => timings_of e l ≠ [] ∧ summarises (timings_of e l) tm
              end) ∧
        j_success ja = i64 (length (completions_with Success l)) ∧
        j_verror ja = i64 (length (completions_with ValidationError l)) ∧
        j_panic ja = i64 (length (completions_with Panic l)) ∧
        j_error ja = i64 (length (completions_with Error l)) ∧
        j_junk ja = i64 (length (completions_with Junk l)) ∧
        t_count (j_timer ja) = i64 (length (completions_of l)) ∧
        (completions_of l ≠ [] → summarises (map snd (completions_of l)) (j_timer ja))
    end }.

(** ** What healthd makes of such an answer (C137) *)

(** the emissions of each visit to the interval that starts at [s] *)
Definition emissions_at (s : Z) (vs : list (Z * list (Z * aop))) : list (list cmd) :=
  omap (λ v : Z * list (Z * aop), if decide (v.1 = s) then Some (hist_cmds v.2) else None) vs.
(** [g] is the one left of [gs]: those after it have as many emissions, the one
    before it has not *)
Definition left_of (gs : list (list cmd)) (g : list cmd) : Prop :=
  ∃ l1 l2, gs = l1 ++ g :: l2 ∧ (∀ x, x ∈ l2 → i64 (length x) = i64 (length g)) ∧
    ∀ x, last l1 = Some x → i64 (length x) ≠ i64 (length g).
