(** * Property theorems: the in-process aggregator (C09-C11, C13-C19)

    [get_metrics d retain h t = Ok out]: a sink with interval length [d] and
    retention [retain], after processing the history [h] of commands, ticks
    and reads, answers a read at time [t] with [out]. *)
From Verif Require Import MAgg SAgg SConserve PAgg PAgg2 PConserve.

(** a history used by the examples: interval 60, times 65..200 *)
Definition ex_h : list (Z * aop) :=
  [(65, OpCmd (CEvent "j" "e")); (66, OpCmd (CTiming "j" "t" 5)); (70, OpCmd (CEvent "k" "e"));
   (71, OpCmd (CTiming "k" "t" (-7))); (72, OpCmd (CGauge "j" "g" (fofZ 3)));
   (73, OpCmd (CGauge "k" "g" (fofZ 4)));
   (80, OpCmd (CEventErr "j" "x" (Some (Err "a" [])))); (81, OpCmd (CEventErr "j" "x" (Some (Err "a" []))));
   (82, OpCmd (CEventErr "j" "x" (Some (Err "b" []))));
   (90, OpCmd (CComplete "j" Success 10)); (91, OpCmd (CComplete "j" Junk 30));
   (130, OpTick); (135, OpCmd (CEvent "j" "e"))].

(** ** C09 *)
Theorem C09_event_counters_exact : ∀ d retain h t out i e,
  0 < d → d ≤ retain → clock_monotone (h ++ [(t, OpRead)]) →
  get_metrics d retain h t = Ok out → i ∈ out →
  am_events (ia_maps i) !! e = counter_entry (length (events_of e (cmds_in d (ia_start i) h))).
Proof. intros d retain h t out i e Hd Hr Hc Hg. exact (thm_events d retain h t out Hd Hr Hc Hg i e). Qed.
Print Assumptions C09_event_counters_exact.

Example C09_example :
  match get_metrics 60 300 ex_h 200 with
  | Ok [i1; i2; i3] => (ia_start i1, ia_start i2, ia_start i3) = (60, 120, 180) ∧
      am_events (ia_maps i1) !! "e" = Some 2 ∧ am_events (ia_maps i2) !! "e" = Some 1 ∧
      am_events (ia_maps i3) !! "e" = None ∧ am_events (ia_maps i1) !! "f" = None
  | _ => False
  end.
Proof. vm_compute. auto 10. Qed.
Example C09_example_clock : clock_monotone (ex_h ++ [(200, OpRead)]).
Proof. unfold clock_monotone. simpl. repeat constructor; lia. Qed.

(** ** C10 *)
Theorem C10_per_job_exact : ∀ d retain h t out i j,
  0 < d → d ≤ retain → clock_monotone (h ++ [(t, OpRead)]) →
  get_metrics d retain h t = Ok out → i ∈ out →
  let l := of_job j (cmds_in d (ia_start i) h) in
  Z.of_nat (length l) ≤ 2 ^ 64 →
  match ia_jobs i !! j with
  | None => l = []
  | Some ja => l ≠ [] ∧
      (∀ e, am_events (j_maps ja) !! e = counter_entry (length (events_of e l))) ∧
      (∀ e, am_gauges (j_maps ja) !! e = last (gauges_of e l)) ∧
      (∀ e, ec_count <$> am_errs (j_maps ja) !! e = counter_entry (length (errors_of e l))) ∧
      (∀ e, match am_timers (j_maps ja) !! e with
            | None => timings_of e l = []
            | Some tm => timings_of e l ≠ [] ∧ summarises (timings_of e l) tm
            end)
  end.
Proof. intros d retain h t out i j Hd Hr Hc Hg. exact (thm_jobs d retain h t out Hd Hr Hc Hg i j). Qed.
Print Assumptions C10_per_job_exact.

Theorem C10_top_level_is_sum_of_jobs : ∀ d retain h t out i e,
  0 < d → d ≤ retain → clock_monotone (h ++ [(t, OpRead)]) →
  get_metrics d retain h t = Ok out → i ∈ out →
  w64 (over_jobs (λ ja, mget (am_events (j_maps ja)) e 0) i) = mget (am_events (ia_maps i)) e 0 ∧
  w64 (over_jobs (λ ja, ec_count (mget (am_errs (j_maps ja)) e errc0)) i)
    = ec_count (mget (am_errs (ia_maps i)) e errc0) ∧
  w64 (over_jobs (λ ja, t_count (mget (am_timers (j_maps ja)) e timer0)) i)
    = t_count (mget (am_timers (ia_maps i)) e timer0) ∧
  w64 (over_jobs (λ ja, t_sum (mget (am_timers (j_maps ja)) e timer0)) i)
    = t_sum (mget (am_timers (ia_maps i)) e timer0).
Proof. intros d retain h t out i e Hd Hr Hc Hg. exact (thm_partition d retain h t out Hd Hr Hc Hg i e). Qed.
Print Assumptions C10_top_level_is_sum_of_jobs.

Example C10_example :
  match get_metrics 60 300 ex_h 200 with
  | Ok (i1 :: _) => (λ ja, am_events (j_maps ja) !! "e") <$> ia_jobs i1 !! "j" = Some (Some 1) ∧
      (λ ja, am_events (j_maps ja) !! "e") <$> ia_jobs i1 !! "k" = Some (Some 1) ∧
      over_jobs (λ ja, mget (am_events (j_maps ja)) "e" 0) i1 = 2 ∧
      over_jobs (λ ja, t_sum (mget (am_timers (j_maps ja)) "t" timer0)) i1 = -2 ∧
      is_Some (ia_jobs i1 !! "j") ∧ ia_jobs i1 !! "zz" = None
  | _ => False
  end.
Proof. vm_compute. repeat split; eauto. Qed.

(** ** C11 *)
Theorem C11_timer_summaries_exact : ∀ d retain h t out i e,
  0 < d → d ≤ retain → clock_monotone (h ++ [(t, OpRead)]) →
  get_metrics d retain h t = Ok out → i ∈ out →
  let ts := timings_of e (cmds_in d (ia_start i) h) in
  Z.of_nat (length ts) ≤ 2 ^ 64 →
  match am_timers (ia_maps i) !! e with
  | None => ts = []
  | Some tm => ts ≠ [] ∧ summarises ts tm
  end.
Proof. intros d retain h t out i e Hd Hr Hc Hg. exact (thm_timers d retain h t out Hd Hr Hc Hg i e). Qed.
Print Assumptions C11_timer_summaries_exact.

Example C11_example :
  match get_metrics 60 300 ex_h 200 with
  | Ok (i1 :: _) => am_timers (ia_maps i1) !! "t" = Some (Timer 2 (-2) (fofZ 74) (-7) 5)
  | _ => False
  end.
Proof. vm_compute. reflexivity. Qed.

(** ** C13 *)
Theorem C13_gauges_report_last_value : ∀ d retain h t out i e,
  0 < d → d ≤ retain → clock_monotone (h ++ [(t, OpRead)]) →
  get_metrics d retain h t = Ok out → i ∈ out →
  am_gauges (ia_maps i) !! e = last (gauges_of e (cmds_in d (ia_start i) h)).
Proof. intros d retain h t out i e Hd Hr Hc Hg. exact (thm_gauges d retain h t out Hd Hr Hc Hg i e). Qed.
Print Assumptions C13_gauges_report_last_value.

Theorem C13_job_gauges_report_last_value : ∀ d retain h t out i j ja e,
  0 < d → d ≤ retain → clock_monotone (h ++ [(t, OpRead)]) →
  get_metrics d retain h t = Ok out → i ∈ out → ia_jobs i !! j = Some ja →
  am_gauges (j_maps ja) !! e = last (gauges_of e (of_job j (cmds_in d (ia_start i) h))).
Proof. intros d retain h t out i j ja e Hd Hr Hc Hg. exact (thm_job_gauges d retain h t out Hd Hr Hc Hg i j ja e). Qed.
Print Assumptions C13_job_gauges_report_last_value.

Example C13_example :
  match get_metrics 60 300 ex_h 200 with
  | Ok (i1 :: _) => am_gauges (ia_maps i1) !! "g" = Some (fofZ 4) ∧
      (λ ja, am_gauges (j_maps ja) !! "g") <$> ia_jobs i1 !! "j" = Some (Some (fofZ 3))
  | _ => False
  end.
Proof. vm_compute. auto. Qed.

(** ** C14

    For non-nil errors (the API wraps every error it hands to a sink, see
    C05) the samples are exactly the last five errors once consecutive equal
    ones are squashed, where errors are equal if their texts and stacks are.
    What DeepEqual compares besides is in TErrors.v. *)
Theorem C14_error_counters_and_samples_partial : ∀ d retain h t out i e,
  0 < d → d ≤ retain → clock_monotone (h ++ [(t, OpRead)]) →
  get_metrics d retain h t = Ok out → i ∈ out →
  let es := errors_of e (cmds_in d (ia_start i) h) in
  match am_errs (ia_maps i) !! e with
  | None => es = []
  | Some ec => es ≠ [] ∧ ec_count ec = i64 (length es) ∧
      ∀ xs, es = map Some xs →
        get_error_samples ec ≡ₚ lastn 5 (squash xs) ∧
        (length (get_error_samples ec) ≤ 5)%nat ∧
        (∀ x, x ∈ get_error_samples ec → x ∈ xs) ∧
        (∀ x, last xs = Some x → x ∈ get_error_samples ec)
  end.
Proof. intros d retain h t out i e Hd Hr Hc Hg. exact (thm_errors d retain h t out Hd Hr Hc Hg i e). Qed.
Print Assumptions C14_error_counters_and_samples_partial.

Example C14_example :
  match get_metrics 60 300 ex_h 200 with
  | Ok (i1 :: _) => (λ ec, (ec_count ec, get_error_samples ec)) <$> am_errs (ia_maps i1) !! "x"
                    = Some (3, [Err "a" []; Err "b" []])
  | _ => False
  end.
Proof. vm_compute. auto. Qed.

(** ** C15 *)
Theorem C15_completion_counters : ∀ d retain h t out i j,
  0 < d → d ≤ retain → clock_monotone (h ++ [(t, OpRead)]) →
  get_metrics d retain h t = Ok out → i ∈ out →
  let l := of_job j (cmds_in d (ia_start i) h) in
  let cs := completions_of l in
  Z.of_nat (length cs) ≤ 2 ^ 64 →
  match ia_jobs i !! j with
  | None => l = []
  | Some ja =>
      j_success ja = i64 (length (completions_with Success l)) ∧
      j_verror ja = i64 (length (completions_with ValidationError l)) ∧
      j_panic ja = i64 (length (completions_with Panic l)) ∧
      j_error ja = i64 (length (completions_with Error l)) ∧
      j_junk ja = i64 (length (completions_with Junk l)) ∧
      t_count (j_timer ja) = i64 (length cs) ∧
      (cs ≠ [] → summarises (map snd cs) (j_timer ja)) ∧
      ((∀ p, p ∈ cs → 0 ≤ p.1 ≤ 4) →
       t_count (j_timer ja) = w64 (j_success ja + j_verror ja + j_panic ja + j_error ja + j_junk ja))
  end.
Proof. intros d retain h t out i j Hd Hr Hc Hg. exact (thm_complete d retain h t out Hd Hr Hc Hg i j). Qed.
Print Assumptions C15_completion_counters.

Example C15_example :
  match get_metrics 60 300 ex_h 200 with
  | Ok (i1 :: _) =>
      (λ ja, (j_success ja, j_error ja, j_junk ja, j_timer ja)) <$> ia_jobs i1 !! "j"
      = Some (1, 0, 1, Timer 2 40 (fofZ 1000) 10 30)
  | _ => False
  end.
Proof. vm_compute. auto. Qed.

(** ** C16 *)
Theorem C16_bounded_retention_window : ∀ d retain h t out,
  0 < d → d ≤ retain → clock_monotone (h ++ [(t, OpRead)]) →
  get_metrics d retain h t = Ok out →
  map ia_start out = lastn (Z.to_nat (retain `div` d)) (squash (map (slot d) (map fst h ++ [t]))) ∧
  Z.of_nat (length out) ≤ retain `div` d ∧
  StronglySorted Z.lt (map ia_start out) ∧
  (∀ i, i ∈ out → (d | ia_start i)).
Proof. exact thm_window. Qed.
Print Assumptions C16_bounded_retention_window.

Theorem C16_sliding_keeps_data : ∀ d retain h1 t1 out1 h2 t2 out2 i1 i2,
  0 < d → d ≤ retain → clock_monotone (h1 ++ (t1, OpRead) :: h2 ++ [(t2, OpRead)]) →
  get_metrics d retain h1 t1 = Ok out1 →
  get_metrics d retain (h1 ++ (t1, OpRead) :: h2) t2 = Ok out2 →
  i1 ∈ out1 → i2 ∈ out2 → ia_start i1 = ia_start i2 →
  cmds_in d (ia_start i1) h2 = [] → i1 = i2.
Proof.
  intros d retain h1 t1 out1 h2 t2 out2 i1 i2 Hd Hr Hc Hg1 Hg2 Hi1 Hi2 Hst.
  exact (proj1 (thm_two_reads d retain h1 t1 out1 h2 t2 out2 i1 i2 Hd Hr Hc Hg1 Hg2 Hi1 Hi2 Hst)).
Qed.
Print Assumptions C16_sliding_keeps_data.

(** everything done at most the retention ago, in whole intervals, is shown *)
Theorem C16_recent_kept : ∀ d retain h t out u o,
  0 < d → d ≤ retain → clock_monotone (h ++ [(t, OpRead)]) →
  get_metrics d retain h t = Ok out →
  (u, o) ∈ h → slot d t - slot d u < d * (retain `div` d) → slot d u ∈ map ia_start out.
Proof. intros d retain h t out u o Hd Hr Hc Hg. exact (thm_recent_kept d retain h t out Hd Hr Hc Hg u o). Qed.
Print Assumptions C16_recent_kept.

(** the intervals shown share out the commands, none twice *)
Theorem C16_nothing_lost : ∀ d retain h t out,
  0 < d → d ≤ retain → clock_monotone (h ++ [(t, OpRead)]) →
  get_metrics d retain h t = Ok out → recent d retain h t →
  concat (map (λ i, cmds_in d (ia_start i) h) out) ≡ₚ hist_cmds h ∧
  ∀ e, event_total e out = i64 (length (events_of e (hist_cmds h))).
Proof.
  intros d retain h t out Hd Hr Hc Hg Hw.
  exact (conj (thm_nothing_lost d retain h t out Hd Hr Hc Hg Hw) (λ e, thm_event_total d retain h t out e Hd Hr Hc Hg Hw)).
Qed.
Print Assumptions C16_nothing_lost.

Example C16_example_recent : recent 60 300 ex_h 200 ∧
  match get_metrics 60 300 ex_h 200 with Ok out => (length out, event_total "e" out) = (3%nat, 3) | _ => False end ∧
  ¬ recent 60 120 ex_h 200 ∧
  match get_metrics 60 120 ex_h 200 with Ok out => event_total "e" out = 1 | _ => False end.
Proof.
  split; [|split; [vm_compute; auto|split; [|vm_compute; auto]]].
  - intros u o Hu. unfold ex_h in Hu. repeat (apply elem_of_cons in Hu as [[= -> ->]|Hu]; [by vm_compute|]). by apply elem_of_nil in Hu.
  - intros H. specialize (H 65 (OpCmd (CEvent "j" "e")) ltac:(left)). by vm_compute in H.
Qed.

Example C16_example :
  match get_metrics 60 120 ex_h 200, get_metrics 60 120 (ex_h ++ [(200, OpRead); (230, OpTick)]) 235 with
  | Ok [i2; i3], Ok [i2'; i3'] => map ia_start [i2; i3] = [120; 180] ∧ i2 = i2' ∧ i3 = i3'
  | _, _ => False
  end.
Proof. vm_compute. auto. Qed.

(** ** C17: false of the code when retain < interval (also retain = 0): the
    first command, tick or read writes at index -1. *)
Theorem C17_any_retention_safe_refuted : ∀ d retain t o,
  0 < d → 0 ≤ retain < d →
  ∃ a0, new_aggregator d retain = Ok a0 ∧ agg_run a0 [(t, o)] = Crash "index out of range [-1]".
Proof. exact thm_small_retention_crashes. Qed.
Print Assumptions C17_any_retention_safe_refuted.

Example C17_witness :
  get_metrics 60 30 [] 5 = Crash "index out of range [-1]".
Proof. reflexivity. Qed.

(** With retain >= interval every history is survived, whatever the clock does. *)
Theorem C17_any_retention_safe_partial : ∀ d retain h,
  0 < d → d ≤ retain →
  ∃ a0 a, new_aggregator d retain = Ok a0 ∧ agg_run a0 h = Ok a ∧
          Z.of_nat (length (a_ints a)) ≤ retain `div` d.
Proof. exact thm_retention_safe. Qed.
Print Assumptions C17_any_retention_safe_partial.

(** ** C18: false of the code when the clock steps back over a boundary *)
Theorem C18_one_entry_per_interval_refuted : ∃ d retain h t out i1 i2,
  0 < d ∧ d ≤ retain ∧ get_metrics d retain h t = Ok out ∧
  out !! 0%nat = Some i1 ∧ out !! 2%nat = Some i2 ∧ ia_start i1 = ia_start i2.
Proof. exact thm_duplicate_interval. Qed.
Print Assumptions C18_one_entry_per_interval_refuted.

Theorem C18_one_entry_per_interval_partial : ∀ d retain h t out,
  0 < d → d ≤ retain → clock_monotone (h ++ [(t, OpRead)]) →
  get_metrics d retain h t = Ok out → NoDup (map ia_start out).
Proof. exact thm_no_duplicate_interval. Qed.
Print Assumptions C18_one_entry_per_interval_partial.

(** ** C19 *)
Theorem C19_serial_counts_commands : ∀ d retain h t out i,
  0 < d → d ≤ retain → clock_monotone (h ++ [(t, OpRead)]) →
  get_metrics d retain h t = Ok out → i ∈ out →
  ia_serial i = i64 (length (cmds_in d (ia_start i) h)).
Proof. intros d retain h t out i Hd Hr Hc Hg. exact (thm_serial d retain h t out Hd Hr Hc Hg i). Qed.
Print Assumptions C19_serial_counts_commands.

(** one emission: the other intervals are untouched, the current one is the
    old current one (or a fresh one) with the serial number one higher *)
Theorem C19_emission_raises_serial_by_one : ∀ a t c a' r,
  agg_step a t (OpCmd c) = Ok (a', r) →
  ∃ l i i', a_ints a' = l ++ [i'] ∧ ia_start i' = truncate (a_dur a) t ∧
    ia_serial i' = w64 (ia_serial i + 1) ∧
    (∀ x, x ∈ l → x ∈ a_ints a) ∧
    (i ∈ a_ints a ∨ i = new_ia (truncate (a_dur a) t)) ∧ ia_start i = ia_start i'.
Proof. exact thm_cmd_serial. Qed.
Print Assumptions C19_emission_raises_serial_by_one.

Theorem C19_ticks_and_reads_change_nothing : ∀ a t o a' r i,
  agg_step a t o = Ok (a', r) → (∀ c, o ≠ OpCmd c) → i ∈ a_ints a' →
  i ∈ a_ints a ∨ i = new_ia (truncate (a_dur a) t).
Proof. exact thm_tick_read. Qed.
Print Assumptions C19_ticks_and_reads_change_nothing.

Theorem C19_same_serial_same_contents : ∀ d retain h1 t1 out1 h2 t2 out2 i1 i2,
  0 < d → d ≤ retain → clock_monotone (h1 ++ (t1, OpRead) :: h2 ++ [(t2, OpRead)]) →
  get_metrics d retain h1 t1 = Ok out1 →
  get_metrics d retain (h1 ++ (t1, OpRead) :: h2) t2 = Ok out2 →
  i1 ∈ out1 → i2 ∈ out2 → ia_start i1 = ia_start i2 →
  ia_serial i1 = ia_serial i2 →
  Z.of_nat (length (cmds_in d (ia_start i1) (h1 ++ h2))) < 2 ^ 64 → i1 = i2.
Proof.
  intros d retain h1 t1 out1 h2 t2 out2 i1 i2 Hd Hr Hc Hg1 Hg2 Hi1 Hi2 Hst.
  exact (proj2 (thm_two_reads d retain h1 t1 out1 h2 t2 out2 i1 i2 Hd Hr Hc Hg1 Hg2 Hi1 Hi2 Hst)).
Qed.
Print Assumptions C19_same_serial_same_contents.

Example C19_example :
  match get_metrics 60 300 ex_h 200 with
  | Ok [i1; i2; i3] => (ia_serial i1, ia_serial i2, ia_serial i3) = (11, 1, 0)
  | _ => False
  end.
Proof. vm_compute. reflexivity. Qed.
