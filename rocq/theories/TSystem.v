(** * Property theorems: from the emissions of processes to what healthd
      publishes (C97) and its jobs page shows (C98)

    The answers carry sums of squares; that these stay finite is a matter of
    real numbers, hence the axioms below. *)
From Verif Require Import SHealth SApi SSystem PWireEx PHealthEx PHealthdEx PSystem PSystem2 PSystem3 PSystemEx PSystemEx2.

(** An interval published after a recalculation has, in every counter, what the
    processes had emitted in it when they gave the last answer healthd has
    taken from each: each once, whatever was taken before, how late, or in what
    order, and whatever else failed. *)
Theorem C97_published_is_emitted : ∀ ff d P zone tr hosts ops o s st p,
  float_codec ff → in_int64 d → 0 < d → procs_ok d P tr →
  sys ff d P zone tr (ops ++ [HRecalc o]) → hrun (hd_init hosts) (ops ++ [HRecalc o]) (Ok st) → kept d s tr →
  p ∈ hd_pub st → pa_time p = (s, zone) →
  ∃ l, NoDup (map fst l) ∧ (∀ i k, (i, k) ∈ l ↔ heard d P tr i s k) ∧
    ∀ c, ctr_val c (pa_ia p) = w64 (zsum (map (λ ik : nat * nat, tally c (cmds_in d s (take ik.2 (hist ik.1 tr)))) l)).
Proof. intros ff d P zone tr hosts ops o s st p Hff H64 Hd HP. exact (system_published ff d P zone tr Hff H64 Hd HP hosts ops o s st p). Qed.
Print Assumptions C97_published_is_emitted.

(** When those answers were given after the interval had ended, it has
    everything these processes ever emitted in it. *)
Theorem C97_finished_interval_exact : ∀ ff d P zone tr hosts ops o s st p,
  float_codec ff → in_int64 d → 0 < d → procs_ok d P tr →
  sys ff d P zone tr (ops ++ [HRecalc o]) → hrun (hd_init hosts) (ops ++ [HRecalc o]) (Ok st) → kept d s tr →
  p ∈ hd_pub st → pa_time p = (s, zone) →
  (∀ i k, heard d P tr i s k → ∃ t, hist i tr !! k = Some (t, OpRead) ∧ s + d ≤ t) →
  ∃ l, NoDup l ∧ (∀ i, i ∈ l ↔ ∃ k, heard d P tr i s k) ∧
    ∀ c, ctr_val c (pa_ia p) = w64 (zsum (map (λ i, tally c (cmds_in d s (hist i tr))) l)).
Proof. intros ff d P zone tr hosts ops o s st p Hff H64 Hd HP. exact (system_whole ff d P zone tr Hff H64 Hd HP hosts ops o s st p). Qed.
Print Assumptions C97_finished_interval_exact.

(** An interval listed by an answer that was taken is published, unless the
    published list is full of intervals that are not older. *)
Theorem C97_heard_is_published : ∀ ff d P zone tr hosts ops o s st i k,
  float_codec ff → in_int64 d → 0 < d → procs_ok d P tr →
  sys ff d P zone tr (ops ++ [HRecalc o]) → hrun (hd_init hosts) (ops ++ [HRecalc o]) (Ok st) → kept d s tr →
  heard d P tr i s k →
  (∃ p, p ∈ hd_pub st ∧ pa_time p = (s, zone)) ∨
  (Z.of_nat (length (hd_pub st)) = hd_retain `div` d ∧ ∀ q, q ∈ hd_pub st → s ≤ ia_start (pa_ia q)).
Proof. intros ff d P zone tr hosts ops o s st i k Hff H64 Hd HP. exact (system_covered ff d P zone tr Hff H64 Hd HP hosts ops o s st i k). Qed.
Print Assumptions C97_heard_is_published.

(** healthd survives: no execution makes it crash. *)
Theorem C97_no_crash : ∀ ff d P zone tr hosts ops why,
  float_codec ff → in_int64 d → 0 < d → procs_ok d P tr →
  sys ff d P zone tr ops → ¬ hrun (hd_init hosts) ops (Crash why).
Proof. intros ff d P zone tr hosts ops why Hff H64 Hd HP. exact (system_safe ff d P zone tr Hff H64 Hd HP hosts ops why). Qed.
Print Assumptions C97_no_crash.

(** Every answer a process gave can be taken, and is usable. *)
Theorem C97_answers_can_be_taken : ∀ ff d P zone tr ops i k t (loc : nat → Z → N) w s st t1 t2,
  float_codec ff → in_int64 d → 0 < d → procs_ok d P tr →
  sys ff d P zone tr ops → hist i tr !! k = Some (t, OpRead) →
  (∀ n u, loc n (p_off (P i) u) = zone) → reachable w → w_streams w !! s = Some st →
  ∃ r, usable r ∧ sys ff d P zone (tr ++ [SRecv i k]) (ops ++ [HResp r t1 t2]).
Proof.
  intros ff d P zone tr ops i k t loc w s st t1 t2 Hff H64 Hd HP. exact (system_answers ff d P zone tr Hff H64 Hd HP ops i k t loc w s st t1 t2).
Qed.
Print Assumptions C97_answers_can_be_taken.

(** two processes, an early answer, a failure, a purge and late answers *)
Example C97_example :
  sys go_float minute y_proc 0 (y_events ++ [SRecalc (the_order y_state)]) (y_ops ++ [y_recalc]) ∧
  hrun (hd_init ["h:1"]) (y_ops ++ [y_recalc]) (Ok y_end) ∧
  procs_ok minute y_proc (y_events ++ [SRecalc (the_order y_state)]) ∧
  kept minute y_start (y_events ++ [SRecalc (the_order y_state)]) ∧
  heard minute y_proc (y_events ++ [SRecalc (the_order y_state)]) 0 y_start 3 ∧
  heard minute y_proc (y_events ++ [SRecalc (the_order y_state)]) 1 y_start 3 ∧
  map (λ p, (pa_time p, map (λ c, ctr_val c (pa_ia p))
    [KTop (KEvents "e"); KJob "job" (KIn (KEvents "e")); KTop (KTimerSum "t"); KJob "job" KSuccess; KJob "job" KSum])) (hd_pub y_end) =
  [((y_start, 0%N), [3; 2; 7; 1; 40]); ((y_start + minute, 0%N), [0; 0; 0; 0; 0])].
Proof.
  split; [exact y_sys|]. split; [exact y_run|]. split; [exact y_procs_end|]. split; [exact y_kept|].
  split; [exact y_heard0|]. split; [exact y_heard1|]. exact y_shown.
Qed.

(** As long as the answers of each process are taken in the order it gave them,
    no count published for an interval goes down from one recalculation to a
    later one. *)
Theorem C97_counts_never_go_down : ∀ ff d P zone tr1 tr2 hosts ops1 o1 ops2 o2 s st1 st2 p1 p2 c,
  float_codec ff → in_int64 d → 0 < d → procs_ok d P (tr1 ++ tr2) →
  sys ff d P zone tr1 (ops1 ++ [HRecalc o1]) → hrun (hd_init hosts) (ops1 ++ [HRecalc o1]) (Ok st1) →
  sys ff d P zone (tr1 ++ tr2) (ops2 ++ [HRecalc o2]) → hrun (hd_init hosts) (ops2 ++ [HRecalc o2]) (Ok st2) →
  kept d s (tr1 ++ tr2) → in_order (tr1 ++ tr2) → few_in_all d s (tr1 ++ tr2) → counting c →
  p1 ∈ hd_pub st1 → pa_time p1 = (s, zone) → p2 ∈ hd_pub st2 → pa_time p2 = (s, zone) →
  ctr_val c (pa_ia p1) ≤ ctr_val c (pa_ia p2).
Proof.
  intros ff d P zone tr1 tr2 hosts ops1 o1 ops2 o2 s st1 st2 p1 p2 c Hff H64 Hd HP HS1 Hr1 HS2 Hr2.
  exact (system_never_down ff d P zone tr1 tr2 _ _ Hff H64 Hd HP HS1 HS2 hosts o1 o2 ops1 ops2 s st1 st2 p1 p2 c eq_refl eq_refl Hr1 Hr2).
Qed.
Print Assumptions C97_counts_never_go_down.
(** one process, its two answers taken in order: all that is asked for holds *)
Example C97_counts_example :
  procs_ok minute y_proc (z_tr1 1 ++ z_tr2 1 3) ∧
  sys go_float minute y_proc 0 (z_tr1 1) (z_ops1 1) ∧ hrun (hd_init ["h:1"]) (z_ops1 1) (Ok (z_end1 1)) ∧
  sys go_float minute y_proc 0 (z_tr1 1 ++ z_tr2 1 3) (z_ops2 1 3) ∧ hrun (hd_init ["h:1"]) (z_ops2 1 3) (Ok (z_end2 1 3)) ∧
  kept minute y_start (z_tr1 1 ++ z_tr2 1 3) ∧ in_order (z_tr1 1 ++ z_tr2 1 3) ∧ few_in_all minute y_start (z_tr1 1 ++ z_tr2 1 3) ∧
  z_shown (z_end1 1) = [((y_start, 0%N), 1)] ∧ z_shown (z_end2 1 3) = [((y_start, 0%N), 2); ((y_start + minute, 0%N), 0)].
Proof.
  split; [apply z_ok2|]. split; [apply z_sys1; auto|]. split; [apply z_run1; auto|]. split; [apply z_sys2; auto|].
  split; [apply z_run2; auto|]. split; [apply z_kept|]. split; [apply z_order|]. split; [apply z_few2|]. vm_compute. done.
Qed.
(** taken in the other order, the count goes down *)
Example C97_order_matters :
  sys go_float minute y_proc 0 (z_tr1 3) (z_ops1 3) ∧ hrun (hd_init ["h:1"]) (z_ops1 3) (Ok (z_end1 3)) ∧
  sys go_float minute y_proc 0 (z_tr1 3 ++ z_tr2 3 1) (z_ops2 3 1) ∧ hrun (hd_init ["h:1"]) (z_ops2 3 1) (Ok (z_end2 3 1)) ∧
  z_shown (z_end1 3) = [((y_start, 0%N), 2); ((y_start + minute, 0%N), 0)] ∧
  z_shown (z_end2 3 1) = [((y_start, 0%N), 1); ((y_start + minute, 0%N), 0)].
Proof.
  split; [apply z_sys1; auto|]. split; [apply z_run1; auto|]. split; [apply z_sys2; auto|]. split; [apply z_run2; auto|].
  vm_compute. done.
Qed.

(** ** C98 *)

(** The jobs page after a recalculation.  [L] lists, once each, the published
    interval, the process and the last answer of it that was taken.  Every row
    has, in every column that is a total, what was emitted in these; without a
    limit there is a row for exactly the jobs that occur in them. *)
Theorem C98_jobs_page : ∀ ff d P zone tr hosts ops o st srt order sort limit js,
  float_codec ff → in_int64 d → 0 < d → procs_ok d P tr →
  sys ff d P zone tr (ops ++ [HRecalc o]) → hrun (hd_init hosts) (ops ++ [HRecalc o]) (Ok st) →
  (∀ p, p ∈ hd_pub st → kept d (ia_start (pa_ia p)) tr) →
  correct_sort srt → (∀ x, handler_overall (map pa_ia (hd_pub st)) = Some x → order ≡ₚ map_to_list (ia_jobs x)) →
  handler_jobs srt (map pa_ia (hd_pub st)) order sort limit = Some js →
  ∃ L : list (Z * nat * nat), NoDup L ∧
    (∀ s i k, (s, i, k) ∈ L ↔ (∃ p, p ∈ hd_pub st ∧ ia_start (pa_ia p) = s) ∧ heard d P tr i s k) ∧
    (∀ r, r ∈ js →
      let total c := w64 (zsum (map (λ x : Z * nat * nat, tally (KJob (aj_name r) c) (cmds_in d x.1.1 (take x.2 (hist x.1.2 tr)))) L)) in
      aj_count r = total KCount ∧ aj_success r = total KSuccess ∧ aj_verror r = total KVError ∧ aj_panic r = total KPanic ∧
      aj_error r = total KError ∧ aj_junk r = total KJunk ∧ aj_sum r = total KSum) ∧
    NoDup (map aj_name js) ∧
    (get_limit limit ≤ 0 → ∀ j, j ∈ map aj_name js ↔ ∃ s i k, (s, i, k) ∈ L ∧ of_job j (cmds_in d s (take k (hist i tr))) ≠ []).
Proof.
  intros ff d P zone tr hosts ops o st srt order sort limit js Hff H64 Hd HP HS HR Hk.
  exact (system_page ff d P zone tr Hff H64 Hd HP hosts ops o st HS HR Hk srt order sort limit js).
Qed.
Print Assumptions C98_jobs_page.

(** the execution of [C97_example]: one completed job, and one that has only
    recorded an event *)
Example C98_example :
  (∀ p, p ∈ hd_pub y_end → kept minute (ia_start (pa_ia p)) (y_events ++ [SRecalc (the_order y_state)])) ∧
  y_page "name" "" = Some [("job", (1, 1, 40)); ("k", (0, 0, 0))] ∧ y_page "count" "1" = Some [("job", (1, 1, 40))].
Proof. split; [exact y_kept_all|]. exact y_pages. Qed.
