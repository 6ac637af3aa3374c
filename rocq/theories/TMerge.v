(** * Property theorems: Merge (C22, C23, C25-C27)

    [reports d retain h t s i]: a sink (interval [d], retention [retain]) that
    processed history [h], read at time [t] with a non-decreasing clock, lists
    [i] as its interval starting at [s]. *)
From Verif Require Import MMerge SMerge SMerge2 PMerge PMerge2 PMerge3 PMerge4.

(** ** C22 *)
Theorem C22_merge_adds_counters : ∀ a b,
  int64_ia a → int64_ia b →
  let m := ia_merge a b in
  ia_start m = ia_start a ∧ ia_serial m = w64 (ia_serial a + 1) ∧
  (∀ e, ev (ia_maps m) e = w64 (ev (ia_maps a) e + ev (ia_maps b) e)) ∧
  (∀ e, er (ia_maps m) e = w64 (er (ia_maps a) e + er (ia_maps b) e)) ∧
  (∀ e, t_count (tm (ia_maps m) e) = w64 (t_count (tm (ia_maps a) e) + t_count (tm (ia_maps b) e)) ∧
        t_sum (tm (ia_maps m) e) = w64 (t_sum (tm (ia_maps a) e) + t_sum (tm (ia_maps b) e))) ∧
  (∀ e, am_gauges (ia_maps m) !! e =
        match am_gauges (ia_maps b) !! e with Some v => Some v | None => am_gauges (ia_maps a) !! e end) ∧
  dom (am_events (ia_maps m)) = dom (am_events (ia_maps a)) ∪ dom (am_events (ia_maps b)) ∧
  dom (am_errs (ia_maps m)) = dom (am_errs (ia_maps a)) ∪ dom (am_errs (ia_maps b)) ∧
  dom (am_timers (ia_maps m)) = dom (am_timers (ia_maps a)) ∪ dom (am_timers (ia_maps b)) ∧
  dom (am_gauges (ia_maps m)) = dom (am_gauges (ia_maps a)) ∪ dom (am_gauges (ia_maps b)) ∧
  dom (ia_jobs m) = dom (ia_jobs a) ∪ dom (ia_jobs b).
Proof. exact thm_merge_adds. Qed.
Print Assumptions C22_merge_adds_counters.

Theorem C22_merge_adds_job_counters : ∀ a b j,
  int64_ia a → int64_ia b →
  let ja := mget (ia_jobs a) j job0 in
  let jb := mget (ia_jobs b) j job0 in
  let m := mget (ia_jobs (ia_merge a b)) j job0 in
  j_success m = w64 (j_success ja + j_success jb) ∧
  j_verror m = w64 (j_verror ja + j_verror jb) ∧
  j_panic m = w64 (j_panic ja + j_panic jb) ∧
  j_error m = w64 (j_error ja + j_error jb) ∧
  j_junk m = w64 (j_junk ja + j_junk jb) ∧
  t_count (j_timer m) = w64 (t_count (j_timer ja) + t_count (j_timer jb)) ∧
  t_sum (j_timer m) = w64 (t_sum (j_timer ja) + t_sum (j_timer jb)) ∧
  (∀ e, ev (j_maps m) e = w64 (ev (j_maps ja) e + ev (j_maps jb) e)) ∧
  (∀ e, er (j_maps m) e = w64 (er (j_maps ja) e + er (j_maps jb) e)) ∧
  (∀ e, t_count (tm (j_maps m) e) = w64 (t_count (tm (j_maps ja) e) + t_count (tm (j_maps jb) e)) ∧
        t_sum (tm (j_maps m) e) = w64 (t_sum (tm (j_maps ja) e) + t_sum (tm (j_maps jb) e))) ∧
  (∀ e, am_gauges (j_maps m) !! e =
        match am_gauges (j_maps jb) !! e with Some v => Some v | None => am_gauges (j_maps ja) !! e end).
Proof. exact thm_merge_adds_job. Qed.
Print Assumptions C22_merge_adds_job_counters.

(** merging keeps every number an int64, so the hypotheses survive *)
Theorem C22_merge_keeps_int64 : ∀ a b, int64_ia a → int64_ia b → int64_ia (ia_merge a b).
Proof. exact int64_ia_merge. Qed.
Print Assumptions C22_merge_keeps_int64.

Definition ex_a : ia := fold_left ia_apply
  [CEvent "j" "e"; CEvent "j" "e"; CTiming "j" "t" 5; CComplete "j" Success 10; CGauge "j" "g" (fofZ 1)] (new_ia 60).
Definition ex_b : ia := fold_left ia_apply
  [CEvent "k" "e"; CTiming "k" "t" 3; CEventErr "k" "x" (Some (Err "b" [])); CGauge "k" "g" (fofZ 2)] (new_ia 60).

Example C22_example :
  let m := ia_merge ex_a ex_b in
  ev (ia_maps m) "e" = 3 ∧ t_count (tm (ia_maps m) "t") = 2 ∧ t_sum (tm (ia_maps m) "t") = 8 ∧
  er (ia_maps m) "x" = 1 ∧ am_gauges (ia_maps m) !! "g" = Some (fofZ 2) ∧
  j_success (mget (ia_jobs m) "j" job0) = 1 ∧ size (ia_jobs m) = 2%nat ∧ ia_serial m = 6.
Proof. vm_compute. auto 10. Qed.
(** every number in an interval filled from int64 measurements is an int64 *)
Theorem C22_sink_intervals_are_int64 : ∀ d retain h t s i,
  0 < d → d ≤ retain → reports d retain h t s i →
  (∀ x, x ∈ h → match x.2 with
                | OpCmd (CTiming _ _ n) | OpCmd (CComplete _ _ n) => in_int64 n
                | _ => True
                end) →
  int64_ia i.
Proof. exact thm_reports_int64. Qed.
Print Assumptions C22_sink_intervals_are_int64.

(** ** C23: false of the code.  Jobs that have only emitted events carry
    NanosMin = 0, and merging takes it as a measurement: the merged minimum of
    a job that completed once, in 5 ns, is 0 in either merge order. *)
Theorem C23_merged_extremes_refuted :
  ∃ h1 h2 i1 i2 ja,
    reports 60 300 h1 20 0 i1 ∧ reports 60 300 h2 20 0 i2 ∧
    ia_jobs (merge_all 0 [i1; i2]) !! "j" = Some ja ∧
    map snd (completions_of (of_job "j" (cmds_in 60 0 h1 ++ cmds_in 60 0 h2))) = [5] ∧
    t_count (j_timer ja) = 1 ∧ t_min (j_timer ja) = 0 ∧
    ia_jobs (merge_all 0 [i2; i1]) !! "j" = Some (JobAgg (j_maps ja) (Timer 1 5 (fofZ 25) 0 5) 1 0 0 0 0).
Proof. exact thm_min_wrong. Qed.
Print Assumptions C23_merged_extremes_refuted.

(** Right for every named timer, and for the timer of a job that every host
    mentioning it has completed at least once. *)
Theorem C23_merged_extremes_partial : ∀ d retain s (hosts : list (list (Z * aop) * Z)) (is : list ia),
  0 < d → d ≤ retain →
  Forall2 (λ i ht, reports d retain ht.1 ht.2 s i) is hosts →
  let all := concat (map (λ ht, cmds_in d s ht.1) hosts) in
  (∀ e t, am_timers (ia_maps (merge_all s is)) !! e = Some t →
     Z.of_nat (length (timings_of e all)) ≤ 2 ^ 64 →
     is_min (t_min t) (timings_of e all) ∧ is_max (t_max t) (timings_of e all)) ∧
  (∀ j ja, ia_jobs (merge_all s is) !! j = Some ja →
     (∀ e t, am_timers (j_maps ja) !! e = Some t →
        let l := timings_of e (of_job j all) in
        Z.of_nat (length l) ≤ 2 ^ 64 → is_min (t_min t) l ∧ is_max (t_max t) l) ∧
     ((∀ ht, ht ∈ hosts → of_job j (cmds_in d s ht.1) = [] ∨
                          completions_of (of_job j (cmds_in d s ht.1)) ≠ []) →
      let l := map snd (completions_of (of_job j all)) in
      Z.of_nat (length l) ≤ 2 ^ 64 →
      is_min (t_min (j_timer ja)) l ∧ is_max (t_max (j_timer ja)) l)).
Proof. exact thm_split_extremes. Qed.
Print Assumptions C23_merged_extremes_partial.

(** In every case a job's extremes are those of its durations and of a 0 for
    every host that mentions the job without completing it. *)
Theorem C23_job_extremes_partial : ∀ d retain s (hosts : list (list (Z * aop) * Z)) (is : list ia) j ja,
  0 < d → d ≤ retain → Forall2 (λ i ht, reports d retain ht.1 ht.2 s i) is hosts →
  (∀ ht, ht ∈ hosts → Z.of_nat (length (completions_of (of_job j (cmds_in d s ht.1)))) ≤ 2 ^ 64) →
  ia_jobs (merge_all s is) !! j = Some ja →
  is_min (t_min (j_timer ja)) (all_timed_as d s j hosts) ∧ is_max (t_max (j_timer ja)) (all_timed_as d s j hosts).
Proof. exact thm_job_extremes. Qed.
Print Assumptions C23_job_extremes_partial.

(** So, as durations are above 0, the maximum is always right, and the minimum
    exactly when every host that mentions the job completed it. *)
Theorem C23_exactly_partial : ∀ d retain s (hosts : list (list (Z * aop) * Z)) (is : list ia) j ja,
  0 < d → d ≤ retain → Forall2 (λ i ht, reports d retain ht.1 ht.2 s i) is hosts →
  (∀ ht, ht ∈ hosts → Z.of_nat (length (completions_of (of_job j (cmds_in d s ht.1)))) ≤ 2 ^ 64) →
  ia_jobs (merge_all s is) !! j = Some ja →
  let ds := map snd (completions_of (of_job j (concat (map (λ ht, cmds_in d s ht.1) hosts)))) in
  ds ≠ [] → (∀ x, x ∈ ds → 0 < x) →
  is_max (t_max (j_timer ja)) ds ∧
  (is_min (t_min (j_timer ja)) ds ↔
     ∀ ht, ht ∈ hosts → of_job j (cmds_in d s ht.1) = [] ∨ completions_of (of_job j (cmds_in d s ht.1)) ≠ []).
Proof. exact thm_extremes_exactly. Qed.
Print Assumptions C23_exactly_partial.
Example C23_exactly_example :
  Forall2 (λ i ht, reports 60 300 ht.1 ht.2 0 i) [cx_i1; cx_i2] [(cx_h1, 20); (cx_h2, 20)] ∧
  all_timed_as 60 0 "j" [(cx_h1, 20); (cx_h2, 20)] = [0; 5] ∧
  (λ ja, (t_min (j_timer ja), t_max (j_timer ja))) <$> ia_jobs (merge_all 0 [cx_i1; cx_i2]) !! "j" = Some (0, 5).
Proof. split; [|vm_compute; auto]. exact (List.Forall2_cons (R := λ i ht, reports 60 300 ht.1 ht.2 0 i) cx_i1 (cx_h1, 20) cx_r1 (List.Forall2_cons (R := λ i ht, reports 60 300 ht.1 ht.2 0 i) cx_i2 (cx_h2, 20) cx_r2 (List.Forall2_nil _))). Qed.

Example C23_example :
  match am_timers (ia_maps (merge_all 60 [ex_a; ex_b])) !! "t" with
  | Some t => t_min t = 3 ∧ t_max t = 5 | None => False end.
Proof. vm_compute. auto. Qed.

(** ** C25 *)
Theorem C25_split_history_merges_to_whole :
  ∀ d retain s (hosts : list (list (Z * aop) * Z)) (is : list ia) hw tw iw,
  0 < d → d ≤ retain →
  Forall2 (λ i ht, reports d retain ht.1 ht.2 s i) is hosts →
  reports d retain hw tw s iw →
  cmds_in d s hw ≡ₚ concat (map (λ ht, cmds_in d s ht.1) hosts) →
  cs_ia (merge_all s is) = cs_ia iw.
Proof. exact thm_split_history. Qed.
Print Assumptions C25_split_history_merges_to_whole.

Example C25_example :
  reports 60 300 cx_h1 20 0 cx_i1 ∧ reports 60 300 cx_h2 20 0 cx_i2 ∧
  match get_metrics 60 300 (cx_h1 ++ cx_h2) 20 with
  | Ok [iw] => bool_decide (cs_ia (merge_all 0 [cx_i1; cx_i2]) = cs_ia iw) = true ∧
               bool_decide (cs_ia iw = cs_ia (new_ia 0)) = false
  | _ => False
  end.
Proof. split; [exact cx_r1|]. split; [exact cx_r2|]. vm_compute. auto. Qed.

(** ** C26: order of the hosts, and order in which Go iterates its maps *)
Theorem C26_merge_order_irrelevant : ∀ s l1 l2,
  Forall int64_ia l1 → l1 ≡ₚ l2 → view_ia (merge_all s l1) = view_ia (merge_all s l2).
Proof. exact thm_merge_order. Qed.
Print Assumptions C26_merge_order_irrelevant.

Theorem C26_map_iteration_order_irrelevant : ∀ (a b : amaps) ja jb lt lg le lr lj,
  enumerates lt (am_timers b) → enumerates lg (am_gauges b) →
  enumerates le (am_events b) → enumerates lr (am_errs b) → enumerates lj jb →
  AMaps (merge_timers_loop lt (am_timers a)) (merge_gauges_loop lg (am_gauges a))
        (merge_events_loop le (am_events a)) (merge_errs_loop lr (am_errs a)) = amaps_merge a b ∧
  merge_jobs_loop lj ja = merge_jobs_loop (map_to_list jb) ja.
Proof. exact thm_range_order. Qed.
Print Assumptions C26_map_iteration_order_irrelevant.

Example C26_example :
  bool_decide (view_ia (merge_all 60 [ex_a; ex_b]) = view_ia (merge_all 60 [ex_b; ex_a])) = true ∧
  bool_decide (view_ia (merge_all 60 [ex_a; ex_b]) = view_ia (merge_all 60 [ex_a; ex_a])) = false.
Proof. vm_compute. auto. Qed.

(** ** C27: false of the code, float addition is not associative *)
Theorem C27_merged_sum_of_squares_order_refuted :
  ∃ n1 n2 n3 i1 i2 i3,
    reports 60 300 [(10, OpCmd (CTiming "j" "t" n1))] 20 0 i1 ∧
    reports 60 300 [(10, OpCmd (CTiming "j" "t" n2))] 20 0 i2 ∧
    reports 60 300 [(10, OpCmd (CTiming "j" "t" n3))] 20 0 i3 ∧
    t_ss <$> am_timers (ia_maps (merge_all 0 [i1; i2; i3])) !! "t" = Some (fofZ 9007199515875290) ∧
    t_ss <$> am_timers (ia_maps (merge_all 0 [i3; i1; i2])) !! "t" = Some (fofZ 9007199515875288) ∧
    fofZ 9007199515875290 ≠ fofZ 9007199515875288.
Proof. exact thm_ss_order. Qed.
Print Assumptions C27_merged_sum_of_squares_order_refuted.
