(** * Property theorems: what the processes emitted is shown sooner or later (C116)

    [system_exec ff d P zone x trs]: an execution [x] of healthd without end,
    polling the processes [P]; [trs n] is what happened before moment [n].  The
    axioms below are those of C97. *)
From Verif Require Import SSystem PWireEx PHealthEx PSystemEx PLiveSystem PLiveSystemEx SLive4.

(** ** C116 *)
(** An answer of a process that is in the queue is taken. *)
Theorem C116_queued_is_taken : ∀ hosts x n t k r, healthd_exec hosts x → healthd_fair x → never (is_act is_stop) x →
  x_act x n = Some (t, HPush k r) → ∃ m t' t1 t2, (n < m)%nat ∧ x_act x m = Some (t', HTakeResp k r t1 t2).
Proof. intros hosts x n t k r Hx Hf Hn. exact (push_taken hosts x Hx Hf Hn n t k r). Qed.
Print Assumptions C116_queued_is_taken.
(** From some time after an answer is taken, every page shows every interval
    healthd had then heard of, until a purge drops it: with, in every counter,
    what the processes had emitted when they gave the answers taken last, among
    them this one or, if answers come in order, a later one.  (Or it shows only
    intervals that are not older.) *)
Theorem C116_taken_is_shown : ∀ ff d P zone hosts x trs n t k0 r t1 t2 i s k,
  float_codec ff → in_int64 d → 0 < d → healthd_exec hosts x → healthd_fair x → time_passes x → never (is_act is_stop) x →
  system_exec ff d P zone x trs →
  x_act x n = Some (t, HTakeResp k0 r t1 t2) → heard d P (trs (S n)) i s k →
  ∃ m, (n < m)%nat ∧ ∀ m' t' j l, (m < m')%nat → x_act x m' = Some (t', HRet j (AnsI l)) → kept d s (trs m') →
    (∃ n' k', (n < n' ≤ m')%nat ∧ shows d P zone (trs n') s l ∧ heard d P (trs n') i s k' ∧ (in_order (trs n') → (k ≤ k')%nat)) ∨ full d s l.
Proof.
  intros ff d P zone hosts x trs n t k0 r t1 t2 i s k Hff H64 Hd Hx Hf Ht Hn Hs.
  exact (system_shows ff d P zone hosts x trs Hff H64 Hd Hx Hf Ht Hn Hs n t k0 r t1 t2 i s k).
Qed.
Print Assumptions C116_taken_is_shown.
(** Answers of such processes never make healthd panic. *)
Theorem C116_no_crash : ∀ ff d P zone hosts x trs, float_codec ff → in_int64 d → 0 < d →
  is_exec hlstep x → x_at x 0%nat = hl_init hosts → system_exec ff d P zone x trs → ∀ n, l_loop (x_at x n) ≠ ACrash.
Proof. exact system_goes_on. Qed.
Print Assumptions C116_no_crash.

(** a process emits, its answer is taken at moment 1, and the page asked for
    later shows the event *)
Example C116_example : ∃ x trs, healthd_exec ["h:1"] x ∧ healthd_fair x ∧ time_passes x ∧ never (is_act is_stop) x ∧
  system_exec go_float minute y_proc 0 x trs ∧ (∃ t r, x_act x 1%nat = Some (t, HTakeResp 0 r 1000 1001)) ∧
  heard minute y_proc (trs 2%nat) 0 y_start 1 ∧ (∀ n, kept minute y_start (trs n)) ∧
  ∃ t l, x_act x 9%nat = Some (t, HRet 5 (AnsI l)) ∧ map (λ p, (pa_time p, ctr_val (KTop (KEvents "e")) (pa_ia p))) l = [((y_start, 0%N), 1)].
Proof. exact system_fair_example. Qed.
