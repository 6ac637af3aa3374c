(** * From a call in a goroutine to healthtop's screen (C131)

    An execution of healthd and the processes it polls (SLive4.v), one of
    healthtop (SLive8.v), and one of the goroutines and sinks of one of the
    processes (SLive3.v), moment by moment. *)
From Verif Require Export SLive9 SLive8.
From Verif Require SLive3.

(** [z]: the goroutines and sinks of process [i]; /health is served from the
    polling sink at [k] *)
Record process_of (d : Z) (P : nat → proc) (trs : nat → list sev) (i k : nat)
    (progs : list (list MProcess.scall)) (ks : list MProcess.ksink) (z : exec MProcess.proc MProcess.qact) : Prop := {
  pr_exec : SLive3.process_exec progs ks z;
  pr_fair : SLive3.process_fair z;
  pr_stop : never SLive3.stops_sink z;
  pr_sink : ks !! k = Some (MProcess.KPoll (MPolling.pst0 d (p_retain (P i))));
  pr_hist : ∀ n, hist i (trs n) = SPolling.poll_history (SProcess.poll_part k (acts z n)) }.

(** healthd's [n]-th step takes the answer that process [i] gave by its [k]-th
    operation *)
Definition takes_answer (x : exec hl (Z * hact)) (trs : nat → list sev) (n i k : nat) : Prop :=
  (∃ t k0 r t1 t2, x_act x n = Some (t, HTakeResp k0 r t1 t2)) ∧ SRecv i k ∈ drop (length (trs n)) (trs (S n)).
(** the polls of process [i] that began after moment [n0] succeed; what they
    bring was read after they began *)
Definition answers (P : nat → proc) (x : exec hl (Z * hact)) (trs : nat → list sev) (i n0 : nat) : Prop :=
  ∀ n t k0 r t1 t2, x_act x n = Some (t, HTakeResp k0 r t1 t2) → r_hp r = p_hp (P i) → (rounds_before x n0 ≤ k0)%nat →
    ∃ k, SRecv i k ∈ drop (length (trs n)) (trs (S n)) ∧ ∀ b, (rounds_before x b ≤ k0)%nat → (length (hist i (trs b)) ≤ k)%nat.

(** healthtop's table has, at moment [m'], a line for [job] with the totals over
    the published intervals of what the processes had emitted when they gave the
    answers taken last before a moment after [n], among them one of process [i]
    not before its [k]-th operation.  (Or there is no room for the line, or only
    intervals not older than [s] are published.)  The page was asked for after
    moment [n]. *)
Definition shows_job (d : Z) (P : nat → proc) (x : exec hl (Z * hact)) (trs : nat → list sev) (name : string) (height : nat → Z)
    (y : exec (tloop (list ajob)) (tlev (list ajob))) (bold : string → string) (color : tcolor → string → string)
    (job : string) (i : nat) (s : Z) (k n m' : nat) : Prop :=
  ∃ a text head lines p n', on_screen y m' = Some a ∧ jobs_table bold color (map Some a) = Ok text ∧ is_table text (head :: lines) ∧
    map (visible false) head =
      ["Job"; "Total Count"; "Success"; "ValidationError"; "Panic"; "Error"; "Junk"; "Avg Response Time"; "Stddev"; "Min"; "Max"; "Total"] ∧
    (polls_before y n ≤ p)%nat ∧ (n < n' ≤ m')%nat ∧
    (full d s (hd_pub (l_hd (x_at x n'))) ∨ (name = "" ∧ Z.of_nat (length lines) = max_rows (height p)) ∨
     ∃ L k' cells, cells ∈ lines ∧ job_line job (emitted_for d (trs n') L job) cells ∧
       NoDup L ∧ (∀ s i k, (s, i, k) ∈ L ↔ (∃ p, p ∈ hd_pub (l_hd (x_at x n')) ∧ ia_start (pa_ia p) = s) ∧ heard d P (trs n') i s k) ∧
       (s, i, k') ∈ L ∧ (k ≤ k')%nat).
