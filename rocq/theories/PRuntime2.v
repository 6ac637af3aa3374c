(** * Exactly which options crash *)
From Verif Require Import SRuntime PRuntime.

Lemma thm_crash_exactly o : (∃ tr w, rsteps o rst0 tr (Crash w)) ↔ ro_interval o ≤ 0.
Proof.
  split.
  - intros (tr & w & H). destruct (Z.le_gt_cases (ro_interval o) 0); [done|]. exfalso. by eapply thm_no_crash.
  - intros Hi. exists [RStart; RTicker 0], "non-positive interval for NewTicker".
    econstructor; [apply Rt_start|]. apply Rs_crash. by apply Rt_ticker_panic.
Qed.
