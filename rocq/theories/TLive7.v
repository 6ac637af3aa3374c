(** * Property theorems: healthtop in executions without end (C126, C127)

    [x] is healthd, [y] healthtop; the axioms of C127 are those of C97. *)
From Verif Require Import PApi PApiEx PWireEx PHealthEx PSystemEx PTopTable PLiveTop PLiveScreen PLiveScreenEx SLive8.

(** ** C126: healthtop goes on *)
(** Every request that was started is over some day, if requests end. *)
Theorem C126_requests_received : ∀ A (y : exec (tloop A) (tlev A)) n i, is_exec tlstep y → x_at y 0%nat = tloop0 → loop_fair y → requests_end y →
  (i < polls_before y n)%nat → ∃ m now, x_act y m = Some (LTake i now).
Proof. exact @requests_received. Qed.
Print Assumptions C126_requests_received.
(** From some time on, what is shown was asked for after any given moment; also
    if some requests are never answered, if pages come at all. *)
Theorem C126_up_to_date : ∀ A (y : exec (tloop A) (tlev A)) n, is_exec tlstep y → x_at y 0%nat = tloop0 → loop_fair y → ends_or_not y → forever (happens is_page y) →
  ∃ m, ∀ k, (m ≤ k)%nat → ∃ a i j, on_screen y k = Some a ∧ (polls_before y n ≤ i)%nat ∧ (j < k)%nat ∧ x_act y j = Some (LAnswer i (inl a)).
Proof. intros A y n Hy H0. exact (up_to_date y Hy H0 n). Qed.
Print Assumptions C126_up_to_date.
(** the assumption on requests follows if all of them end *)
Theorem C126_assumption : ∀ A (y : exec (tloop A) (tlev A)), is_exec tlstep y → x_at y 0%nat = tloop0 → requests_end y → forever (happens (λ e, e = LTick) y) → ends_or_not y.
Proof. exact @ends_decided. Qed.
Print Assumptions C126_assumption.
(** the first request is never answered *)
Example C126_example : ∃ y : exec (tloop (list ajob)) (tlev (list ajob)), is_exec tlstep y ∧ x_at y 0%nat = tloop0 ∧ loop_fair y ∧ ends_or_not y ∧ forever (happens is_page y) ∧
  never (is_answer 0) y ∧ on_screen y 12%nat = Some [w_row] ∧ polls_before y 12%nat = 2%nat ∧ x_act y 10%nat = Some (LAnswer 1 (inl [w_row])).
Proof. exact hung_request. Qed.

(** ** C127: what was emitted is on the screen sooner or later *)
(** healthd takes an answer at moment [n]; [job] occurs in the operations of
    process [i] that the last answer of it says of interval [s].  From some time
    on, as long as the interval is not purged, healthtop's table has a line for
    the job, with the totals over the published intervals of what the processes
    had emitted when they gave the answers taken last, among them one of process
    [i] that is not older.  (Or there is no room for the line, or only intervals
    that are not older are published.) *)
Theorem C127_on_screen : ∀ ff d P zone hosts x trs srt sort name inst height y bold color n t k0 r t1 t2 i s k job,
  float_codec ff → in_int64 d → 0 < d → healthd_exec hosts x → healthd_fair x → time_passes x → never (is_act is_stop) x →
  system_exec ff d P zone x trs → (∀ n, in_order (trs n)) → unpurged d x trs →
  correct_sort srt → good_name inst → (∀ i, height i < 2 ^ 63) → top_exec ff srt sort name inst height x y → decorates bold → (∀ c, decorates (color c)) →
  x_act x n = Some (t, HTakeResp k0 r t1 t2) → heard d P (trs (S n)) i s k →
  of_job job (cmds_in d s (take k (hist i (trs (S n))))) ≠ [] → occurs name job →
  ∃ m, (n < m)%nat ∧ ∀ m', (m ≤ m')%nat → kept d s (trs m') →
    ∃ a text head lines p n', on_screen y m' = Some a ∧ jobs_table bold color (map Some a) = Ok text ∧ is_table text (head :: lines) ∧
      map (visible false) head =
        ["Job"; "Total Count"; "Success"; "ValidationError"; "Panic"; "Error"; "Junk"; "Avg Response Time"; "Stddev"; "Min"; "Max"; "Total"] ∧
      (polls_before y n ≤ p)%nat ∧ (n < n' ≤ m')%nat ∧
      (full d s (hd_pub (l_hd (x_at x n'))) ∨ (name = "" ∧ Z.of_nat (length lines) = max_rows (height p)) ∨
       ∃ L k' cells, cells ∈ lines ∧ job_line job (emitted_for d (trs n') L job) cells ∧
         NoDup L ∧ (∀ s i k, (s, i, k) ∈ L ↔ (∃ p, p ∈ hd_pub (l_hd (x_at x n')) ∧ ia_start (pa_ia p) = s) ∧ heard d P (trs n') i s k) ∧
         (s, i, k') ∈ L ∧ (k ≤ k')%nat).
Proof.
  intros ff d P zone hosts x trs srt sort name inst height y bold color n t k0 r t1 t2 i s k job Hff H64 Hd Hx Hf Ht Hn Hs Hio Hup Hsrt Hi Hh Hy Hb Hc.
  exact (screen_live ff d P zone hosts x trs Hff H64 Hd Hx Hf Ht Hn Hs Hio Hup srt sort name inst height y Hsrt Hi Hh Hy bold color Hb Hc n t k0 r t1 t2 i s k job).
Qed.
Print Assumptions C127_on_screen.

(** a process emits an event of "job", its answer is taken at moment 1; at
    moment 12 the job is on the screen *)
Example C127_example : ∃ x trs y, healthd_exec ["h:1"] x ∧ healthd_fair x ∧ time_passes x ∧ never (is_act is_stop) x ∧
  system_exec go_float minute y_proc 0 x trs ∧ (∀ n, in_order (trs n)) ∧ unpurged minute x trs ∧
  top_exec go_float isort "name" "" "healthd.1" (λ _, 24) x y ∧
  (∃ t r, x_act x 1%nat = Some (t, HTakeResp 0 r 1000 1001)) ∧ heard minute y_proc (trs 2%nat) 0 y_start 1 ∧
  of_job "job" (cmds_in minute y_start (take 1 (hist 0 (trs 2%nat)))) = [CEvent "job" "e"] ∧ (∀ n, kept minute y_start (trs n)) ∧
  on_screen y 11%nat = None ∧ on_screen y 12%nat = Some [w_row].
Proof. exact on_screen_again. Qed.
Example C127_screen : (λ r, match r with Ok text => visible false text | Crash x => x end) (jobs_table z_bold z_color [Some w_row]) =
  String.concat tab_s job_columns +:+ nl_s +:+ String.concat tab_s ["job"; "0"; "0"; "0"; "0"; "0"; "0"; "0 ns"; "0 ns"; "0 ns"; "0 ns"; "0 ns"; ""] +:+ nl_s.
Proof. vm_compute. reflexivity. Qed.
