(** * Property theorems: what a StatsD server makes of the datagrams (C99-C101)

    [counter], [timings] and [gauge] (SServer.v) read datagrams the way the
    StatsD protocol says; the datagrams are assumed to arrive in order and
    whole. *)
From Coq Require Import Reals.
From Verif Require Import SServer MNum PStatsdEx PShort PServer PServer2 PServer3.
Local Open Scope Z_scope.

Definition srv_o : opts := Opts "pre" sanitize_key false false go_short.

(** ** C99 *)
Theorem C99_counters : ∀ o h s name, clean o → all_fit o (sop_cmds h) → sd_run o sd0 (h ++ [DoFlush]) = Ok s →
  counter name (sd_sent s) = counts o name (sop_cmds h).
Proof. exact thm_server_counter. Qed.
Print Assumptions C99_counters.

(** one timing per Timing and Complete, in order, each in milliseconds *)
Theorem C99_timers : ∀ o h s name, clean o → all_fit o (sop_cmds h) → fine (sop_cmds h) → sd_run o sd0 (h ++ [DoFlush]) = Ok s →
  Forall2 ms_of (timings name (sd_sent s)) (durations o name (sop_cmds h)).
Proof. exact thm_server_timings. Qed.
Print Assumptions C99_timers.

(** when Drain returns, the server has counted all that was emitted before the
    call, and nothing that was not emitted *)
Theorem C99_after_drain : ∀ o tr1 i tr2 s1 s2 s3 name, clean o → all_fit o (accepted (tr1 ++ tr2)) →
  lsteps o lst0 tr1 s1 → l_wd s1 = [] →
  lsteps o s1 (ADrainCall i :: tr2) s2 → no_call is_drain_call tr2 →
  lstep o s2 (ADrainDone i) s3 →
  counts o name (accepted tr1) ≤ counter name (sd_sent (l_sd s3)) ≤ counts o name (accepted (tr1 ++ tr2)).
Proof. exact thm_server_drain. Qed.
Print Assumptions C99_after_drain.

(** the default sanitiser and strconv's number texts are clean *)
Theorem C99_default_clean : ∀ prefix skip_nested skip_top, clean (Opts prefix sanitize_key skip_nested skip_top go_short).
Proof. exact thm_clean. Qed.
Print Assumptions C99_default_clean.

(** without the hypothesis: a sanitiser that lets a newline through *)
Example C99_example_not_clean :
  let o := Opts "" (λ k, k) true false (λ _, "0") in
  let h := [DoCmd (CEvent "j" ("x:7|c" +:+ nl +:+ "e")); DoFlush] in
  (λ s, counter "x" (sd_sent s)) <$> (match sd_run o sd0 h with Ok s => Some s | _ => None end) = Some 7 ∧ counts o "x" (sop_cmds h) = 0.
Proof. vm_compute. auto. Qed.

Definition srv_h : list sop :=
  [DoCmd (CEvent "job" "login"); DoFlush; DoCmd (CEvent "job" "login"); DoCmd (CEvent "other" "login"); DoCmd (CTiming "job" "db" 1500000);
   DoCmd (CEventErr "job" "login" None); DoCmd (CTiming "job" "db" 25000000); DoCmd (CComplete "job" Success 2000000000);
   DoCmd (CGauge "job" "mem" (fofZ 12)); DoCmd (CGauge "job" "mem" (fofZ 15))].
Example C99_example :
  let run := match sd_run srv_o sd0 (srv_h ++ [DoFlush]) with Ok s => sd_sent s | _ => [] end in
  length run = 2%nat ∧
  counter "pre.login" run = 3 ∧ counter "pre.job.login" run = 2 ∧ counter "pre.login.error" run = 1 ∧ counter "pre.db" run = 0 ∧
  counts srv_o "pre.job.login" (sop_cmds srv_h) = 2 ∧
  timings "pre.job.db" run = ["1.50"; "25"] ∧ durations srv_o "pre.job.db" (sop_cmds srv_h) = [1500000; 25000000] ∧
  timings "pre.job.success" run = ["2000"] ∧
  gauge "pre.mem" run = (1500, 100).
Proof. vm_compute. auto 20. Qed.
Example C99_example_fit : all_fit srv_o (sop_cmds srv_h) ∧ fine (sop_cmds srv_h).
Proof. split; repeat constructor; vm_compute; intros ?; discriminate. Qed.

(** ** C100: false for negative values, which the protocol adds to the gauge *)
Theorem C100_gauge_last_value_refuted : ∃ s,
  sd_run (Opts "" sanitize_key true false go_short) sd0 [DoCmd (CGauge "j" "g" (fofZ (-5))); DoCmd (CGauge "j" "g" (fofZ (-5))); DoFlush] = Ok s ∧
  sd_sent s = ["g:-5.00|g" +:+ nl +:+ "g:-5.00|g" +:+ nl] ∧ gauge "g" (sd_sent s) = (-100000, 10000).
Proof. eexists. split; [vm_compute; reflexivity|]. vm_compute. auto. Qed.
Print Assumptions C100_gauge_last_value_refuted.

(** missing: a last value that is negative, NaN or infinite *)
Theorem C100_gauge_last_value_partial : ∀ o h s name vs v, clean o → short_codec (o_short o) → all_fit o (sop_cmds h) →
  sd_run o sd0 (h ++ [DoFlush]) = Ok s →
  gauged o name (sop_cmds h) = vs ++ [v] → SpecFloat.valid_binary 53 1024 v = true → unsigned v →
  ∃ n d, gauge name (sd_sent s) = (n, d) ∧ 0 < d ∧ (Rabs (IZR n / IZR d - fval v) <= 0.005)%R.
Proof. exact thm_server_gauge. Qed.
Print Assumptions C100_gauge_last_value_partial.

(** What is shown for finite values instead: the last that is not negative and
    all the negative ones after it, added up (-0 counts as negative). *)
Theorem C100_sum_since_partial : ∀ o h s name pre v (neg : list f64), clean o → short_codec (o_short o) → all_fit o (sop_cmds h) →
  sd_run o sd0 (h ++ [DoFlush]) = Ok s →
  gauged o name (sop_cmds h) = pre ++ v :: neg → SpecFloat.valid_binary 53 1024 v = true → unsigned v →
  Forall (λ v : f64, SpecFloat.valid_binary 53 1024 v = true ∧ below_zero v) neg →
  ∃ n d, gauge name (sd_sent s) = (n, d) ∧ 0 < d ∧ (Rabs (IZR n / IZR d - (fval v + f_sum neg)) <= 0.005 * INR (S (length neg)))%R.
Proof. exact thm_gauge_after. Qed.
Print Assumptions C100_sum_since_partial.

(** If all were negative, all of them added up. *)
Theorem C100_sum_partial : ∀ o h s name, clean o → short_codec (o_short o) → all_fit o (sop_cmds h) →
  sd_run o sd0 (h ++ [DoFlush]) = Ok s → let vs := gauged o name (sop_cmds h) in
  Forall (λ v : f64, SpecFloat.valid_binary 53 1024 v = true ∧ below_zero v) vs →
  ∃ n d, gauge name (sd_sent s) = (n, d) ∧ 0 < d ∧ (Rabs (IZR n / IZR d - f_sum vs) <= 0.005 * INR (length vs))%R.
Proof. exact thm_gauge_below. Qed.
Print Assumptions C100_sum_partial.

(** 8, -5 and -0.5 make 2.5 *)
Example C100_example_sum :
  let vs := [fofZ 8; fofZ (-5); fdiv (fofZ (-1)) (fofZ 2)] in
  let h := map (λ v, DoCmd (CGauge "j" "g" v)) vs in
  gauged srv_o "pre.g" (sop_cmds h) = vs ∧
  (λ s, gauge "pre.g" (sd_sent s)) <$> (match sd_run srv_o sd0 (h ++ [DoFlush]) with Ok s => Some s | _ => None end) = Some (2500000, 1000000).
Proof. vm_compute. done. Qed.

(** negative values before the last do no harm *)
Example C100_example :
  let h := [DoCmd (CGauge "j" "g" (fofZ 8)); DoCmd (CGauge "j" "g" (fofZ (-5))); DoCmd (CGauge "j" "g" (fdiv (fofZ 1) (fofZ 16)))] in
  (λ s, (sd_sent s, gauge "pre.g" (sd_sent s))) <$> (match sd_run srv_o sd0 (h ++ [DoFlush]) with Ok s => Some s | _ => None end) =
  Some (["pre.g:8.00|g" +:+ nl +:+ "pre.j.g:8.00|g" +:+ nl +:+ "pre.g:-5.00|g" +:+ nl +:+ "pre.j.g:-5.00|g" +:+ nl +:+ "pre.g:0.0625|g" +:+ nl +:+ "pre.j.g:0.0625|g" +:+ nl],
        (625, 10000)).
Proof. vm_compute. reflexivity. Qed.

(** ** C101: false, different events can share a name *)
Theorem C101_names_differ_refuted : ∀ prefix,
  let o := Opts prefix sanitize_key false false go_short in
  series_name o (S_events (Some "login") "x") = series_name o (S_events None "login.x") ∧
  series_name o (S_errors None "login") = series_name o (S_events (Some "login") "error") ∧
  series_name o (S_completions "sync" Success) = series_name o (S_timings (Some "sync") "success") ∧
  series_name o (S_events None "a b") = series_name o (S_events None "a-b").
Proof. intros prefix. unfold series_name, metric_name. cbn [with_job o_prefix o_san]. rewrite !filter_cons, !filter_nil. by destruct prefix. Qed.
Print Assumptions C101_names_differ_refuted.

(** every line sent is about a series *)
Theorem C101_lines_have_series : ∀ o c, ∃ v,
  lines_of o c = map (λ s, series_name o s +:+ ":" +:+ v +:+ "|" +:+ series_type s +:+ nl) (series_of o c).
Proof. exact thm_lines. Qed.
Print Assumptions C101_lines_have_series.

(** missing: names with other bytes than letters, digits, '_' and '$', and
    events named like the error suffix or a completion status *)
Theorem C101_names_differ_partial : ∀ o s1 s2, o_san o = sanitize_key → plain_series s1 → plain_series s2 →
  series_type s1 = series_type s2 → series_name o s1 = series_name o s2 → s1 = s2.
Proof. exact thm_series. Qed.
Print Assumptions C101_names_differ_partial.

(** so that, with such names, the counter of a series counts its events, the
    timer times its timings, the gauge has its values *)
Theorem C101_counts_series_partial : ∀ o s l, o_san o = sanitize_key → plain_series s → series_type s = "c" → plain_cmds o l →
  counts o (series_name o s) l = Z.of_nat (length (filter (λ c, s ∈ series_of o c) l)).
Proof. exact thm_counts_series. Qed.
Print Assumptions C101_counts_series_partial.
Theorem C101_durations_series_partial : ∀ o s l, o_san o = sanitize_key → plain_series s → series_type s = "ms" → plain_cmds o l →
  durations o (series_name o s) l = map duration_of (filter (λ c, s ∈ series_of o c) l).
Proof. exact thm_durations_series. Qed.
Print Assumptions C101_durations_series_partial.
Theorem C101_gauged_series_partial : ∀ o s l, o_san o = sanitize_key → plain_series s → series_type s = "g" → plain_cmds o l →
  gauged o (series_name o s) l = map value_of (filter (λ c, s ∈ series_of o c) l).
Proof. exact thm_gauged_series. Qed.
Print Assumptions C101_gauged_series_partial.

Example C101_example : plain_cmds srv_o (sop_cmds srv_h) ∧
  series_name srv_o (S_events (Some "job") "login") = "pre.job.login" ∧
  filter (λ c, S_events (Some "job") "login" ∈ series_of srv_o c) (sop_cmds srv_h) = [CEvent "job" "login"; CEvent "job" "login"].
Proof.
  split; [|by vm_compute]. repeat apply Forall_cons_2; try apply Forall_nil_2; cbn -[plain_name];
    repeat match goal with
    | |- plain_name _ => apply plain_b; reflexivity
    | |- _ ∧ _ => split
    | |- _ ∉ _ :: _ => apply not_elem_of_cons
    | |- _ ∉ [] => apply not_elem_of_nil
    end; done.
Qed.
