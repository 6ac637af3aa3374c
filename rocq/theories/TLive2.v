(** * Property theorems: what must happen sooner or later in healthd (C114; C64, C65, C82)

    [healthd_exec hosts x]: an execution of healthd without end in which it
    neither panics nor deadlocks (see C56 and C64 for when it does). *)
From Verif Require Import SLive2 PLiveHealthd PHealthdLoopEx PLiveHealthdEx PLiveStuck.

(** ** C114 *)
(** Every answer of a host that was put into the queue is taken by the loop. *)
Theorem C114_answers_taken : ∀ hosts x, healthd_exec hosts x → healthd_fair x → never (is_act is_stop) x → ∀ n,
  ∃ m, (n ≤ m)%nat ∧ pushed (acts x n) `prefix_of` received (acts x m).
Proof. exact healthd_received. Qed.
Print Assumptions C114_answers_taken.
(** Every request of a page is answered. *)
Theorem C114_requests_answered : ∀ hosts x, healthd_exec hosts x → healthd_fair x → never (is_act is_stop) x → ∀ n t i q,
  x_act x n = Some (t, HCall i q) → ∃ m t' a, (n < m)%nat ∧ x_act x m = Some (t', HRet i a).
Proof. exact healthd_answers. Qed.
Print Assumptions C114_requests_answered.
(** After every answer taken the intervals are recalculated once more. *)
Theorem C114_recalculated : ∀ hosts x, healthd_exec hosts x → healthd_fair x → never (is_act is_stop) x → ∀ n t k r t1 t2, time_passes x →
  x_act x n = Some (t, HTakeResp k r t1 t2) → ∃ m t' o, (n < m)%nat ∧ x_act x m = Some (t', HFire o).
Proof. exact healthd_recalc. Qed.
Print Assumptions C114_recalculated.
(** Stop returns. *)
Theorem C114_stop_returns : ∀ hosts x, healthd_exec hosts x → healthd_fair x → ∀ n t i,
  x_act x n = Some (t, HStop i) → (∀ m, happens (is_act is_stop) x m → m = n) → ∃ m t', (n < m)%nat ∧ x_act x m = Some (t', HStopRet i).
Proof. exact healthd_stop. Qed.
Print Assumptions C114_stop_returns.

(** It does not deadlock while fewer than 64 answers are taken between two
    moments at which the debouncer finds no request. *)
Theorem C114_no_deadlock : ∀ hosts x, is_exec hlstep x → x_at x 0%nat = hl_init hosts → (∀ n, taken_since_idle (acts x n) < 64) →
  ∀ n, ¬ wedged (x_at x n).
Proof. exact never_wedged. Qed.
Print Assumptions C114_no_deadlock.

Example C114_example : ∃ x, healthd_exec ["h:1"] x ∧ healthd_fair x ∧ time_passes x ∧ never (is_act is_stop) x ∧
  x_act x 0%nat = Some (3000000000, HPush 0 (w_resp "h:1")) ∧ x_act x 1%nat = Some (6000000000, HCall 5 QIntervals) ∧
  (∃ a, x_act x 3%nat = Some (12000000000, HTakeResp 0 (w_resp "h:1") 0 0) ∧ x_act x 9%nat = Some (30000000000, HFire a)).
Proof. exact healthd_fair_example. Qed.
Example C114_example_stop : ∃ x, healthd_exec [] x ∧ healthd_fair x ∧ x_act x 0%nat = Some (3000000000, HStop 3) ∧
  (∀ m, happens (is_act is_stop) x m → m = 0%nat).
Proof. exact healthd_stop_example. Qed.

(** ** C64, C65, C82 *)
(** What these say can go wrong goes wrong in fair executions as well: no
    scheduler, however fair, helps.  The deadlock: a page is never answered,
    although nobody stops healthd... *)
Theorem C64_fair_deadlock_refuted : ∃ hosts x n t i, length hosts = 66%nat ∧ is_exec hlstep x ∧ x_at x 0%nat = hl_init hosts ∧ healthd_fair x ∧
  (∀ n, clock_runs (acts x n)) ∧ never (is_act is_stop) x ∧ (∀ n, l_loop (x_at x n) ≠ ACrash) ∧
  x_act x n = Some (t, HCall i QIntervals) ∧ never (is_act is_ret) x.
Proof. exact fair_deadlock. Qed.
Print Assumptions C64_fair_deadlock_refuted.
(** ...a request that came just before a Stop: never answered, although the
    loop neither crashed nor got stuck... *)
Theorem C65_fair_hang_refuted : ∃ x n t i, is_exec hlstep x ∧ x_at x 0%nat = hl_init ["h:1"] ∧ healthd_fair x ∧ time_passes x ∧
  (∀ n, l_loop (x_at x n) ≠ ACrash ∧ ¬ wedged (x_at x n)) ∧ (∀ n m, happens (is_act is_stop) x n → happens (is_act is_stop) x m → n = m) ∧
  x_act x n = Some (t, HCall i QIntervals) ∧ never (is_act is_ret) x.
Proof. exact fair_hang. Qed.
Print Assumptions C65_fair_hang_refuted.
(** ...and a second Stop. *)
Theorem C82_fair_second_stop_refuted : ∃ x n t i, is_exec hlstep x ∧ x_at x 0%nat = hl_init ["h:1"] ∧ healthd_fair x ∧ time_passes x ∧
  (∀ n, l_loop (x_at x n) ≠ ACrash ∧ ¬ wedged (x_at x n)) ∧
  x_act x n = Some (t, HStop i) ∧ ∀ m t', x_act x m ≠ Some (t', HStopRet i).
Proof. exact fair_second_stop. Qed.
Print Assumptions C82_fair_second_stop_refuted.
