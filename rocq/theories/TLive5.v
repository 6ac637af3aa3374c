(** * Property theorems: runtime metrics go on (C122) *)
From Verif Require Import PLiveRuntime PLiveRuntimeEx SLive5.

(** ** C122 *)
(** A poller that was started and is not stopped reports again and again. *)
Theorem C122_reports_again : ∀ o x p n, is_exec (rok o) x → x_at x 0%nat = rst0 → runtime_fair o x → 0 < ro_interval o →
  Z.of_nat p < starts (acts x n) → never (is_stop_of p) x → forever (happens (is_tick p) x).
Proof. intros o x p n Hx H0 Hf Ho. exact (thm_ticks o x Hx H0 Hf Ho p n). Qed.
Print Assumptions C122_reports_again.
(** Every report that was begun is emitted whole: all its gauges, in order,
    stopped or not. *)
Theorem C122_reports_complete : ∀ o x p n, is_exec (rok o) x → x_at x 0%nat = rst0 → runtime_fair o x →
  ∃ m, (n ≤ m)%nat ∧ concat (reports_of o p (acts x n)) `prefix_of` gauges_of p (acts x m).
Proof. intros o x p n Hx H0 Hf. exact (thm_reports_emitted o x Hx H0 Hf p n). Qed.
Print Assumptions C122_reports_complete.
(** A Stop that a poller took returns. *)
Theorem C122_stop_returns : ∀ o x i p n, is_exec (rok o) x → x_at x 0%nat = rst0 → runtime_fair o x →
  x_act x n = Some (RStop i p) → ∃ m, (n < m)%nat ∧ happens (is_return_of i) x m.
Proof. intros o x i p n Hx H0 Hf. exact (thm_stop_returns o x Hx H0 Hf i p n). Qed.
Print Assumptions C122_stop_returns.
(** And one is taken, if some poller that was started was not stopped and nobody
    else is stopping them: even if a report is under way. *)
Theorem C122_stop_taken : ∀ o x i p n, is_exec (rok o) x → x_at x 0%nat = rst0 → runtime_fair o x → 0 < ro_interval o → keeps_stopping o i x →
  Z.of_nat p < starts (acts x n) → (∀ j, RStop j p ∉ acts x n) → never (is_stop_not_by i) x → ∃ m, (n ≤ m)%nat ∧ happens (is_stop_by i) x m.
Proof. intros o x i p n Hx H0 Hf Ho. exact (thm_stop_taken o x Hx H0 Hf Ho i p n). Qed.
Print Assumptions C122_stop_taken.

(** a poller reporting for ever; one that is stopped after its first report *)
Example C122_example : ∃ x, is_exec (rok lr_opts) x ∧ x_at x 0%nat = rst0 ∧ runtime_fair lr_opts x ∧ 0 < starts (acts x 1) ∧ (∀ p, never (is_stop_of p) x) ∧
  gauges_of 0 (acts x 8) = [("num_goroutines", fofZ 3); ("num_goroutines", fofZ 3)].
Proof.
  exists (lr_run false). split; [exact (lr_exec false)|]. split; [reflexivity|]. split; [exact lr_fair|]. split; [reflexivity|].
  split; [exact lr_never_stops|]. vm_compute. reflexivity.
Qed.
Example C122_stop_example : ∃ x, is_exec (rok lr_opts) x ∧ x_at x 0%nat = rst0 ∧ runtime_fair lr_opts x ∧ keeps_stopping lr_opts 7 x ∧ never (is_stop_not_by 7) x ∧
  acts x 7 = [RStart; RTicker 0; RTick 0 lr_read; RGauge 0 "num_goroutines" (fofZ 3); RReported 0; RStop 7 0; RStopped 7 0].
Proof.
  exists (lr_run true). split; [exact (lr_exec true)|]. split; [reflexivity|]. split; [exact (proj1 lr_stop_fair)|]. split; [exact (proj2 lr_stop_fair 7%nat)|].
  split; [exact lr_not_others|exact lr_stop_acts].
Qed.
