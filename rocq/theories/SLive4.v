(** * From the answers of the processes to the pages of healthd, in time (C116)

    An execution of healthd without end (SLive2.v) together with the processes
    it polls (SSystem.v). *)
From Verif Require Export SLive2 SSystem.

(** [trs n]: what has happened in the processes and in healthd before moment [n] *)
Record system_exec (ff : f64 → string) (d : Z) (P : nat → proc) (zone : N) (x : exec hl (Z * hact)) (trs : nat → list sev) : Prop := {
  se_grows : ∀ n, trs n `prefix_of` trs (S n);
  se_sys : ∀ n, sys ff d P zone (trs n) (ops (acts x n));
  se_ok : ∀ n, procs_ok d P (trs n) }.

(** [l] has an interval [s] with, in every counter, what the processes had
    emitted in it when they gave the last answer healthd had taken from each in
    [tr] *)
Definition shows (d : Z) (P : nat → proc) (zone : N) (tr : list sev) (s : Z) (l : list pagg) : Prop :=
  ∃ p L, p ∈ l ∧ pa_time p = (s, zone) ∧ NoDup (map fst L) ∧ (∀ i k, (i, k) ∈ L ↔ heard d P tr i s k) ∧
    ∀ c, ctr_val c (pa_ia p) = w64 (zsum (map (λ ik : nat * nat, tally c (cmds_in d s (take ik.2 (hist ik.1 tr)))) L)).
(** [l] is full, and of intervals that are not older *)
Definition full (d s : Z) (l : list pagg) : Prop :=
  Z.of_nat (length l) = hd_retain `div` d ∧ ∀ q, q ∈ l → s ≤ ia_start (pa_ia q).
