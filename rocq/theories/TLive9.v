(** * Property theorems: from a call in a goroutine to healthtop's screen (C131)

    [z] are the goroutines and sinks of process [i], [x] is healthd, [y]
    healthtop; the axioms are those of C97 and C127. *)
From Verif Require Import PApi PApiEx PWireEx PHealthdEx PHealthEx PSystemEx PTopTable PLiveScreenEx PLiveWhole PLiveWholeEx1 PLiveWholeEx3 SLive10.
From Verif Require SLive3.

(** ** C131: what a goroutine tells the stream is on the screen sooner or later *)
(** Goroutine [g] of process [i] makes a call that tells the sink behind
    /health of [c].  The sink takes it, at time [t0], as its [j]-th operation;
    healthd takes, again and again, answers given after that; and after each of
    them that lists the interval of [t0], from some time on, as long as the
    interval is not purged, healthtop's table has a line for the job. *)
Theorem C131_call_on_screen : ∀ ff d P zone hosts x trs i k progs ks z n0 srt sort name inst height y bold color g prog c,
  float_codec ff → in_int64 d → 0 < d →
  process_of d P trs i k progs ks z →
  healthd_exec hosts x → healthd_fair x → time_passes x → never (is_act is_stop) x → asks_fair x →
  system_exec ff d P zone x trs → (∀ n, in_order (trs n)) → unpurged d x trs → answers P x trs i n0 → p_hp (P i) ∈ hosts →
  correct_sort srt → good_name inst → (∀ i, height i < 2 ^ 63) → top_exec ff srt sort name inst height x y → decorates bold → (∀ c, decorates (color c)) →
  progs !! g = Some prog → c ∈ SProcess.tells_sink k prog → occurs name (cmd_job c) →
  ∃ j t0 b, (∀ n, (b ≤ n)%nat → hist i (trs n) !! j = Some (t0, OpCmd c)) ∧
    (∀ n, ∃ n' k', (n < n')%nat ∧ takes_answer x trs n' i k' ∧ (j < k')%nat) ∧
    ∀ n k', takes_answer x trs n i k' → (j < k')%nat → slot d t0 ∈ listed d (p_retain (P i)) (take (S k') (hist i (trs (S n)))) →
      ∃ m, (n < m)%nat ∧ ∀ m', (m ≤ m')%nat → kept d (slot d t0) (trs m') →
        shows_job d P x trs name height y bold color (cmd_job c) i (slot d t0) k' n m'.
Proof.
  intros ff d P zone hosts x trs i k progs ks z n0 srt sort name inst height y bold color g prog c Hff H64 Hd Hz Hx Hf Ht Hn Ha Hs Hio Hup Hans Hhost Hsrt Hi Hh Hy Hb Hc.
  exact (whole_way ff d P zone hosts x trs Hs i k progs ks z Hd Hz Hx Hf Hn Ha n0 Hans Hhost Hff H64 Ht Hio Hup srt sort name inst height y Hsrt Hi Hh Hy bold color Hb Hc g prog c).
Qed.
Print Assumptions C131_call_on_screen.

(** a goroutine emits an event of "job"; healthd asks the process again and
    again, healthtop asks healthd: the job is on the screen from moment 19 on *)
Example C131_example : ∃ x trs y ks z, system_exec go_float minute y_proc 0 x trs ∧ process_of minute y_proc trs 0 0 [[u_call]] ks z ∧
  healthd_exec ["h:1"] x ∧ healthd_fair x ∧ never (is_act is_stop) x ∧ asks_fair x ∧ answers y_proc x trs 0 0 ∧ time_passes x ∧ (∀ n, in_order (trs n)) ∧ unpurged minute x trs ∧
  top_exec go_float isort "name" "" "healthd.1" (λ _, 24) x y ∧
  SProcess.tells_sink 0 [u_call] = [CEvent "job" "e"] ∧
  (∀ n k, takes_answer x trs n 0 k → slot minute clock ∈ listed minute (60 * minute) (take (S k) (hist 0 (trs (S n))))) ∧ (∀ n, kept minute (slot minute clock) (trs n)) ∧
  on_screen y 18%nat = None ∧ ∀ n, (19 ≤ n)%nat → on_screen y n = Some [w_row].
Proof. exact whole_example. Qed.
