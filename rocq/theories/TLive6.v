(** * Property theorems: healthd's goroutines after Stop (C125) *)
From Verif Require Import PHealthdLoopEx PLiveLeak SLive6.

(** ** C125: when Stop has returned healthd's goroutines end *)
(** The debouncer never does: it wakes up for ever, or waits for ever for a loop
    that has left. *)
Theorem C125_debouncer_stays_refuted : ∀ hosts x n, is_exec hlstep x → x_at x 0%nat = hl_init hosts → healthd_fair x → stopped (x_at x n) →
  ∀ m, (n ≤ m)%nat → ∃ k, (m ≤ k)%nat ∧ (happens (is_act is_deb) x k ∨ ∃ o, ∀ j, (k ≤ j)%nat → l_deb (x_at x j) = DSnd o).
Proof. intros hosts x n Hx H0. exact (thm_debouncer hosts x Hx H0 n). Qed.
Print Assumptions C125_debouncer_stays_refuted.
(** With more polls under way than there is room for their responses, some of
    them wait for ever. *)
Theorem C125_polls_stay_refuted : ∀ hosts x n, is_exec hlstep x → x_at x 0%nat = hl_init hosts → stopped (x_at x n) →
  (64 < polls_left (l_rounds (x_at x n)) + length (l_resp (x_at x n)))%nat → ∀ m, (n ≤ m)%nat → (0 < polls_left (l_rounds (x_at x m)))%nat.
Proof. intros hosts x n Hx H0. exact (thm_polls_left hosts x Hx H0 n). Qed.
Print Assumptions C125_polls_stay_refuted.
Example C125_left : ∃ x, is_exec hlstep x ∧ x_at x 0%nat = hl_init w_hosts ∧ healthd_fair x ∧ stopped (x_at x 3) ∧ polls_left (l_rounds (x_at x 3)) = 67%nat.
Proof. exact leak_example. Qed.
(** Otherwise they all end, and no new ones are started. *)
Theorem C125_polls_end_partial : ∀ hosts x n, is_exec hlstep x → x_at x 0%nat = hl_init hosts → polls_fair x → stopped (x_at x n) →
  (polls_left (l_rounds (x_at x n)) + length (l_resp (x_at x n)) ≤ 64)%nat → ∃ m, (n ≤ m)%nat ∧ polls_left (l_rounds (x_at x m)) = 0%nat.
Proof. intros hosts x n Hx H0. exact (thm_polls_end hosts x Hx H0 n). Qed.
Print Assumptions C125_polls_end_partial.
Theorem C125_none_started_partial : ∀ hosts x n m, is_exec hlstep x → x_at x 0%nat = hl_init hosts → stopped (x_at x n) → (n ≤ m)%nat →
  stopped (x_at x m) ∧ (polls_left (l_rounds (x_at x m)) + length (l_resp (x_at x m)))%nat = (polls_left (l_rounds (x_at x n)) + length (l_resp (x_at x n)))%nat ∧
  (polls_left (l_rounds (x_at x m)) ≤ polls_left (l_rounds (x_at x n)))%nat.
Proof. intros hosts x n m Hx H0. exact (gone_after hosts x Hx H0 n m). Qed.
Print Assumptions C125_none_started_partial.
Example C125_example : ∃ x, is_exec hlstep x ∧ x_at x 0%nat = hl_init ["h:1"] ∧ healthd_fair x ∧ polls_fair x ∧ stopped (x_at x 3) ∧
  polls_left (l_rounds (x_at x 3)) = 2%nat ∧ l_resp (x_at x 3) = [] ∧ polls_left (l_rounds (x_at x 5)) = 0%nat.
Proof. exact ends_example. Qed.
