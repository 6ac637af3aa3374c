(** * Property theorems: floating point (C12, C27, C40, C59, C60, C84, C92)

    These speak about real numbers, so the axioms of the standard library's
    real numbers appear below the theorems that mention them. *)
From Verif Require Import SFloat2 SFloat3 SStatsd3 SApi MMerge SMerge.
From Verif Require Import PFloat2 PFloat3 PFloat4 PFloat5 PStatsd3 PFloatEx PLibrato PShort.
From Verif Require Import MNum.

(** ** C12 *)

(** [good_ss k f l]: [f] is exactly the sum of the squares of [l] when that is
    at most 2^53; it is finite, not negative, and within [k] roundings of the
    true sum in any case *)
Theorem C12_sum_of_squares : ∀ d retain h t out i, 0 < d → d ≤ retain → clock_monotone (h ++ [(t, OpRead)]) →
  get_metrics d retain h t = Ok out → i ∈ out → host_int64 h →
  let cmds := cmds_in d (ia_start i) h in
  (∀ e tm, am_timers (ia_maps i) !! e = Some tm →
     let l := timings_of e cmds in good_ss (3 + length l) (t_ss tm) l) ∧
  (∀ j ja, ia_jobs i !! j = Some ja →
     (∀ e tm, am_timers (j_maps ja) !! e = Some tm →
        let l := timings_of e (of_job j cmds) in good_ss (3 + length l) (t_ss tm) l) ∧
     (let l := map snd (completions_of (of_job j cmds)) in good_ss (3 + length l) (t_ss (j_timer ja)) l)).
Proof. exact thm_sink_ss. Qed.
Print Assumptions C12_sum_of_squares.

Theorem C12_sum_of_squares_exact : ∀ l, zsumsq l ≤ 2 ^ 53 →
  sum_squares l = fofZ (zsumsq l) ∧ fval (sum_squares l) = IZR (zsumsq l).
Proof. exact thm_ss_exact. Qed.
Print Assumptions C12_sum_of_squares_exact.

(** a value that is rounded, and the histories it comes from *)
Definition c12_h : list (Z * aop) :=
  [(10, OpCmd (CTiming "j" "t" 3037000499)); (11, OpCmd (CTiming "j" "t" 4)); (12, OpCmd (CComplete "j" Success (-9)))].
Example C12_example :
  host_int64 c12_h ∧ clock_monotone (c12_h ++ [(20, OpRead)]) ∧
  match get_metrics 60 300 c12_h 20 with
  | Ok [i] =>
      t_ss <$> am_timers (ia_maps i) !! "t" = Some (fofZ 9223372030926248960) ∧
      (λ ja, t_ss (j_timer ja)) <$> ia_jobs i !! "j" = Some (fofZ 81)
  | _ => False
  end ∧ zsumsq [3037000499; 4] = 9223372030926249017.
Proof.
  split; [|split; [|split; [vm_compute; auto|reflexivity]]].
  - intros x Hx. unfold c12_h in Hx. rewrite !elem_of_cons, elem_of_nil in Hx. destruct Hx as [->|[->|[->|[]]]]; done.
  - repeat constructor; simpl; lia.
Qed.

(** ** C27 (refuted in TMerge.v) *)

(** missing: sums above 2^53, which do depend on the order, are the true sum
    only up to one rounding per measurement and host *)
Theorem C27_merged_sum_of_squares_partial : ∀ d retain s (hosts : list (list (Z * aop) * Z)) (is : list ia),
  0 < d → d ≤ retain →
  Forall2 (λ i ht, reports d retain ht.1 ht.2 s i) is hosts →
  (∀ ht, ht ∈ hosts → host_int64 ht.1) →
  let all := concat (map (λ ht, cmds_in d s ht.1) hosts) in
  (∀ e t, am_timers (ia_maps (merge_all s is)) !! e = Some t →
     good_ss (3 + length (timings_of e all) + length hosts) (t_ss t) (timings_of e all)) ∧
  (∀ j ja, ia_jobs (merge_all s is) !! j = Some ja →
     (∀ e t, am_timers (j_maps ja) !! e = Some t →
        let l := timings_of e (of_job j all) in good_ss (3 + length l + length hosts) (t_ss t) l) ∧
     (let l := map snd (completions_of (of_job j all)) in good_ss (3 + length l + length hosts) (t_ss (j_timer ja)) l)).
Proof. exact thm_merged_ss. Qed.
Print Assumptions C27_merged_sum_of_squares_partial.

(** ** C40 *)

(** [denotes s x]: [s] is a decimal numeral for [x].  Negative durations of
    more than a hundred days are rounded more. *)
Theorem C40_timing_error_refuted :
  ∃ n x, in_int64 n ∧ n < 10000000 ∧ denotes (nanos_text n) x ∧ (0.006 < Rabs (x - IZR n / 1000000))%R.
Proof. exact thm_nanos_refuted. Qed.
Print Assumptions C40_timing_error_refuted.

(** missing: durations below -2^53 ns, where the error can reach 0.0064 ms *)
Theorem C40_timing_error_partial : ∀ n x, in_int64 n → denotes (nanos_text n) x →
  (10000000 ≤ n → x = IZR (n / 1000000)) ∧
  (-2 ^ 53 ≤ n < 10000000 → (Rabs (x - IZR n / 1000000) <= 0.005001)%R) ∧
  (n < 10000000 → (Rabs (x - IZR n / 1000000) <= 0.0071)%R).
Proof. exact thm_nanos_error. Qed.
Print Assumptions C40_timing_error_partial.

Theorem C40_timing_is_number : ∀ n, in_int64 n → ∃ x, denotes (nanos_text n) x.
Proof. exact thm_nanos_number. Qed.
Print Assumptions C40_timing_is_number.

Theorem C40_timing_monotone : ∀ n1 n2 x1 x2, in_int64 n1 → in_int64 n2 → n1 ≤ n2 →
  denotes (nanos_text n1) x1 → denotes (nanos_text n2) x2 → (x1 <= x2)%R.
Proof. exact thm_nanos_mono. Qed.
Print Assumptions C40_timing_monotone.

Example C40_example :
  nanos_text 9999999 = "10.00" ∧ nanos_text 10000000 = "10" ∧ nanos_text 10999999 = "10" ∧
  nanos_text 1235000 = "1.24" ∧ nanos_text (-4999) = "-0.00" ∧ read_num "-0.00" = Some (0, 100) ∧ read_num "1.24" = Some (124, 100).
Proof. vm_compute. auto 10. Qed.

(** ** C92: gauges *)
Theorem C92_gauge_number_refuted : ∃ o v, read_num (gauge_text o v) = None.
Proof. exists (Opts "" (λ s, s) false false (λ _, "")), S754_nan. by vm_compute. Qed.
Print Assumptions C92_gauge_number_refuted.
(** these and no others are not numerals *)
Theorem C92_not_finite_refuted : ∀ o v, ffinite v = false → read_num (gauge_text o v) = None ∧
  gauge_text o v = match v with S754_nan => "NaN" | S754_infinity true => "-Inf" | _ => "+Inf" end.
Proof. exact gauge_not_finite. Qed.
Print Assumptions C92_not_finite_refuted.

(** missing: NaN and the infinities.  [short_codec]: the shortest text of a
    value is a decimal numeral that parses back to the value *)
Theorem C92_gauge_text_partial : ∀ o v, short_codec (o_short o) → valid_binary 53 1024 v = true → ffinite v = true →
  ∃ x, denotes (gauge_text o v) x ∧ (Rabs (x - fval v) <= 0.005)%R.
Proof. exact thm_gauge_text_all. Qed.
Print Assumptions C92_gauge_text_partial.

(** the shortest such text is one *)
Theorem C92_short_text : short_codec go_short.
Proof. exact go_short_ok. Qed.
Print Assumptions C92_short_text.

Example C92_example : let o := Opts "" (λ s, s) false false go_short in let v := fdiv (fofZ 22) (fofZ 7) in
  valid_binary 53 1024 v = true ∧ ffinite v = true ∧
  gauge_text o v = "3.14" ∧ read_num "3.14" = Some (314, 100) ∧
  gauge_text o (fdiv (fofZ (-1)) (fofZ 30)) = "-0.03333333333333333" ∧
  gauge_text o (fdiv (fofZ 1) (fofZ 16)) = "0.0625" ∧
  gauge_text o (fdiv (fofZ 1) (fofZ (2 ^ 40))) = "0.0000000000009094947017729282".
Proof. vm_compute. auto 20. Qed.

(** ** C59: the average is never NaN, so sorting by it always works *)
Theorem C59_sorted_by_average : ∀ srt o order limit js,
  correct_sort srt → order ≡ₚ map_to_list (ia_jobs o) → int64_ia o →
  filter_jobs srt (Some o) order "avg" limit = Some js → StronglySorted (may_precede "avg") js.
Proof. exact thm_avg_sorted. Qed.
Print Assumptions C59_sorted_by_average.

(** ** C60 (refuted in TApi.v) *)

(** every job healthd lists, merged from any hosts, is described by its
    completions *)
Theorem C60_jobs_described : ∀ d retain s (hosts : list (list (Z * aop) * Z)) (is : list ia) j ja,
  0 < d → d ≤ retain →
  Forall2 (λ i ht, reports d retain ht.1 ht.2 s i) is hosts →
  (∀ ht, ht ∈ hosts → host_int64 ht.1) →
  ia_jobs (merge_all s is) !! j = Some ja →
  let l := map snd (completions_of (of_job j (concat (map (λ ht, cmds_in d s ht.1) hosts)))) in
  Forall in_int64 l ∧ describes (3 + length l + length hosts) ja l.
Proof. exact thm_describes. Qed.
Print Assumptions C60_jobs_described.

Theorem C60_average_finite : ∀ j, in_int64 (t_count (j_timer j)) → in_int64 (t_sum (j_timer j)) → ffinite (job_avg j) = true.
Proof. exact thm_avg_finite. Qed.
Print Assumptions C60_average_finite.

(** missing: sums of durations that overflow an int64 *)
Theorem C60_average_partial : ∀ k j l, describes k j l → l ≠ [] → zlength l ≤ 2 ^ 53 → in_int64 (zsum l) →
  ffinite (job_avg j) = true ∧ within_roundings 2 (fval (job_avg j)) (mean l).
Proof. exact thm_avg. Qed.
Print Assumptions C60_average_partial.

(** missing: data whose mean is too large compared with its standard
    deviation, where the formula cancels *)
Theorem C60_stddev_small_partial : ∀ k j l,
  describes k j l → 2 ≤ zlength l → zlength l ≤ 2 ^ 26 → zlength l * zsumsq l ≤ 2 ^ 53 →
  ffinite (job_stddev j) = true ∧ within_roundings 2 (fval (job_stddev j)) (sample_stddev l).
Proof. exact thm_stddev_exact. Qed.
Print Assumptions C60_stddev_small_partial.

Theorem C60_stddev_partial : ∀ k j l c,
  describes k j l → Forall in_int64 l → 2 ≤ zlength l → zlength l ≤ 2 ^ 26 → in_int64 (zsum l) →
  (0 <= c)%R → (Rabs (mean l) <= c * sample_stddev l)%R →
  (((1 + eps) ^ (k + 3) - 1) * (1 + 4 * c * c) <= / 2)%R →
  ffinite (job_stddev j) = true ∧
  (Rabs (fval (job_stddev j) - sample_stddev l) <=
    ((1 + ((1 + eps) ^ (k + 3) - 1) * (1 + 4 * c * c)) * (1 + eps) ^ 3 - 1) * sample_stddev l)%R.
Proof. exact thm_stddev_general. Qed.
Print Assumptions C60_stddev_partial.

(** three completions of 2, 4 and 9 ns: mean 5, standard deviation sqrt 13 *)
Example C60_example :
  describes 0 c60_job [2; 4; 9]%Z ∧ mean [2; 4; 9]%Z = 5%R ∧ sample_stddev [2; 4; 9]%Z = R_sqrt.sqrt 13 ∧
  job_avg c60_job = fofZ 5 ∧ job_stddev c60_job = fsqrt (fofZ 13) ∧
  (Rabs (mean [2; 4; 9]%Z) <= 2 * sample_stddev [2; 4; 9]%Z)%R.
Proof. exact c60_facts. Qed.

(** ** C84 (refuted in TLibrato.v) *)

(** missing: gauges larger than 10^100 or not finite *)
Theorem C84_modest_batches_sent_partial : ∀ c tr now ok,
  since_flush [] tr ≠ [] → (∀ job e, LCmd job e ∈ tr → modest e) →
  ∃ b, posts c (tr ++ [LFlush now ok]) = posts c tr ++ [(LPost now (Z.quot (c_period c) 1000000000) (c_source c) b, ok)].
Proof. exact thm_sent_modest. Qed.
Print Assumptions C84_modest_batches_sent_partial.

Example C84_modest_example :
  since_flush [] c84_tr ≠ [] ∧ (∀ job e, LCmd job e ∈ c84_tr → modest e) ∧
  length (posts (LConf "" (λ s, s) 60000000000 "src") (c84_tr ++ [LFlush 9 true])) = 1%nat.
Proof. split; [done|]. split; [exact c84_modest|]. vm_compute. reflexivity. Qed.
