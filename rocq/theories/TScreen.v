(** * Property theorems: from the emissions of processes to healthtop's screen (C121)

    The axioms are those of real numbers, as for C97. *)
From Verif Require Import PApi PWireEx PHealthdEx PSystemEx PTopTable PScreen PScreenEx SScreen SSystem.

(** ** C121 *)
(** After a recalculation healthtop asks healthd for its jobs.  [L] lists, once
    each, the published interval, the process and the last answer of it that
    was taken.  What healthtop prints is a table with a line for every job that
    occurs in these (and whose name contains the given text; without one, for as
    many as fit), in whose columns stands what was emitted. *)
Theorem C121_screen_shows_emitted : ∀ ff d P zone tr hosts ops o st srt order sort name height msg inst dur x now bold color,
  float_codec ff → in_int64 d → 0 < d → procs_ok d P tr →
  sys ff d P zone tr (ops ++ [HRecalc o]) → hrun (hd_init hosts) (ops ++ [HRecalc o]) (Ok st) →
  (∀ p, p ∈ hd_pub st → kept d (ia_start (pa_ia p)) tr) →
  correct_sort srt → (∀ x, handler_overall (map pa_ia (hd_pub st)) = Some x → order ≡ₚ map_to_list (ia_jobs x)) →
  good_name inst → in_int64 dur → height < 2 ^ 63 → decorates bold → (∀ c, decorates (color c)) →
  let q := top_query sort name height in
  let page := handler_jobs srt (map pa_ia (hd_pub st)) order (query_get q "sort") (query_get q "limit") in
  (∀ r, r ∈ default [] page → legible r) →
  ∃ body js text head lines L,
    render msg (enc_api_jobs ff inst dur page) = (200, body) ∧ top_jobs_event x body now = TResponse (map Some js) now ∧
    jobs_table bold color (map Some (top_jobs js name)) = Ok text ∧ is_table text (head :: lines) ∧
    map (visible false) head =
      ["Job"; "Total Count"; "Success"; "ValidationError"; "Panic"; "Error"; "Junk"; "Avg Response Time"; "Stddev"; "Min"; "Max"; "Total"] ∧
    (NoDup L ∧ ∀ s i k, (s, i, k) ∈ L ↔ (∃ p, p ∈ hd_pub st ∧ ia_start (pa_ia p) = s) ∧ heard d P tr i s k) ∧
    ∃ jobs, Forall2 (λ job, job_line job (emitted_for d tr L job)) jobs lines ∧ NoDup jobs ∧
      (∀ job, job ∈ jobs → occurring d tr L job ∧ occurs name job) ∧
      (name ≠ "" → ∀ job, occurring d tr L job → occurs name job → job ∈ jobs) ∧
      (name = "" → ∀ all, NoDup all → (∀ job, job ∈ all ↔ occurring d tr L job) →
        Z.of_nat (length jobs) = Z.min (max_rows height) (Z.of_nat (length all))).
Proof.
  intros ff d P zone tr hosts ops o st srt order sort name height msg inst dur x now bold color Hff H64 Hd HP HS HR Hk Hsrt Hord.
  exact (screen_detail ff d P zone tr Hff H64 Hd HP hosts ops o st HS HR Hk srt order Hsrt Hord sort name height msg inst dur x now bold color).
Qed.
Print Assumptions C121_screen_shows_emitted.

(** the execution of [C97_example]: the assumptions hold, and the screen *)
Example C121_example :
  (∀ p, p ∈ hd_pub y_end → kept minute (ia_start (pa_ia p)) (y_events ++ [SRecalc (the_order y_state)])) ∧
  (∀ r, r ∈ default [] (y_answer "name" "" 24) → legible r) ∧
  y_text "name" "" 24 = String.concat tab_s job_columns +:+ nl_s +:+
    String.concat tab_s ["job"; "1"; "1"; "0"; "0"; "0"; "0"; "40 ns"; "0 ns"; "0 ns"; "40 ns"; "40 ns"; ""] +:+ nl_s +:+
    String.concat tab_s ["k"; "0"; "0"; "0"; "0"; "0"; "0"; "0 ns"; "0 ns"; "0 ns"; "0 ns"; "0 ns"; ""] +:+ nl_s ∧
  y_text "count" "ob" 24 = String.concat tab_s job_columns +:+ nl_s +:+
    String.concat tab_s ["job"; "1"; "1"; "0"; "0"; "0"; "0"; "40 ns"; "0 ns"; "0 ns"; "40 ns"; "40 ns"; ""] +:+ nl_s.
Proof. exact (conj y_kept_all (conj y_legible y_lines)). Qed.
