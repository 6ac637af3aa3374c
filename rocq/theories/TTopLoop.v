(** * Property theorems: what healthtop shows (C103, C104) *)
From Verif Require Import PTopLoop PTopTable.

(** ** C103 *)

(** two polls overlap, the answers are received in the other order than
    healthd gave them: the older page replaces the newer one and the status
    line says success *)
Theorem C103_newest_page_shown_refuted : ∃ (tr : list (tlev string)) s, tl_run tloop0 tr = Some s ∧ all_over tr ∧
  newest_page tr = Some "newer" ∧ tp_last (tl_top s) = Some "older" ∧ fmt_status dec_int (tp_status (tl_top s)) = "[success]".
Proof. exact (ex_intro _ z_overlap z_overlap_run). Qed.
Print Assumptions C103_newest_page_shown_refuted.

(** while healthd does not answer, requests pile up without bound *)
Theorem C103_requests_pile_up_refuted : ∀ n, ∃ (tr : list (tlev string)) s, tl_run tloop0 tr = Some s ∧
  ∀ i, (i < n)%nat → (i < started tr)%nat ∧ i ∉ takes tr.
Proof. exact thm_pile_up. Qed.
Print Assumptions C103_requests_pile_up_refuted.

(** if every poll is over when the next one starts: the polls are received from
    in the order of healthd's answers, and when none is outstanding the page
    shown is the last one healthd answered with.  Missing: overlapping polls *)
Theorem C103_newest_page_shown_partial : ∀ A (tr : list (tlev A)) s, tl_run tloop0 tr = Some s → one_at_a_time tr →
  takes tr `prefix_of` map fst (answers tr) ∧ (all_over tr → tp_last (tl_top s) = newest_page tr).
Proof. exact (λ A tr s Hr Ho, conj (one_in_order tr s Hr Ho) (one_newest tr s Hr Ho)). Qed.
Print Assumptions C103_newest_page_shown_partial.

Theorem C103_one_request_partial : ∀ A (tr : list (tlev A)) s, tl_run tloop0 tr = Some s → one_at_a_time tr →
  ∀ i j, (i < started tr)%nat → (j < started tr)%nat → i ∉ takes tr → j ∉ takes tr → i = j.
Proof. exact @one_outstanding. Qed.
Print Assumptions C103_one_request_partial.

(** every poll's answer reaches the loop's state at most once, and only polls
    that were answered are received from, whatever overlaps *)
Theorem C103_each_answer_once : ∀ A (tr : list (tlev A)) s, tl_run tloop0 tr = Some s →
  NoDup (takes tr) ∧ NoDup (map fst (answers tr)) ∧ ∀ i, i ∈ takes tr → i ∈ map fst (answers tr) ∧ (i < started tr)%nat.
Proof. exact @thm_answer_once. Qed.
Print Assumptions C103_each_answer_once.

(** the status line tells the outcome of the poll the loop received last, and
    after a page that page is shown, whatever overlaps *)
Theorem C103_status : ∀ A fmt (tr : list (tlev A)) s, tl_run tloop0 tr = Some s → clocked tr →
  (takes tr = [] → fmt_status fmt (tp_status (tl_top s)) = "[starting...]") ∧
  ∀ tr1 tr2 i now, tr = tr1 ++ LTake i now :: tr2 → takes tr2 = [] →
    (∀ a, (i, inl a) ∈ answers tr1 → fmt_status fmt (tp_status (tl_top s)) = "[success]" ∧ tp_last (tl_top s) = Some a) ∧
    (∀ x, (i, inr x) ∈ answers tr1 →
       fmt_status fmt (tp_status (tl_top s)) = "[error: '" +:+ x +:+ "'    LastErrorAt: " +:+ fmt now +:+ "]").
Proof. exact @thm_loop_status. Qed.
Print Assumptions C103_status.
Example C103_status_example : ∃ (tr : list (tlev string)) s, tr = [LAnswer 0 (inl "page"); LTick; LTake 0 5; LAnswer 1 (inr "refused"); LTick; LTake 1 9] ∧
  clocked tr ∧ tl_run tloop0 tr = Some s ∧ tp_last (tl_top s) = Some "page" ∧
  fmt_status dec_int (tp_status (tl_top s)) = "[error: 'refused'    LastErrorAt: 9]".
Proof.
  eexists _, _. split; [reflexivity|]. split; [split; [repeat constructor|repeat constructor]|]. split; [vm_compute; reflexivity|]. by vm_compute.
Qed.

Example C103_example : one_at_a_time z_single ∧ all_over z_single ∧ newest_page z_single = Some "newer" ∧
  ∃ s, tl_run tloop0 z_single = Some s ∧ tp_last (tl_top s) = Some "newer".
Proof. exact (conj z_single_one (conj z_single_over (conj eq_refl z_single_run))). Qed.

(** ** C104 *)

(** a tab in a job's name shifts every value by a column, a line break in it
    splits the row *)
Theorem C104_row_per_job_refuted :
  (∃ text, jobs_table z_bold z_color [Some z_tabbed] = Ok text ∧
     ∀ head rows, is_table text (head :: rows) → ¬ Forall2 (λ j cells, job_row j (map (visible false) cells)) [z_tabbed] rows) ∧
  (∃ text, jobs_table z_bold z_color [Some z_two_lines] = Ok text ∧ ∀ head rows, is_table text (head :: rows) → length rows = 2%nat).
Proof. exact (conj thm_row_refuted thm_line_refuted). Qed.
Print Assumptions C104_row_per_job_refuted.

(** names without such characters: a row for every job, in order, with its
    values under the right headings *)
Theorem C104_jobs_table_partial : ∀ bold color, decorates bold → (∀ c, decorates (color c)) →
  ∀ l, Forall (λ j, tidy (aj_name j) ∧ ordinary j) l →
  ∃ text head rows, jobs_table bold color (map Some l) = Ok text ∧ is_table text (head :: rows) ∧
    map (visible false) head =
      ["Job"; "Total Count"; "Success"; "ValidationError"; "Panic"; "Error"; "Junk"; "Avg Response Time"; "Stddev"; "Min"; "Max"; "Total"] ∧
    Forall2 (λ j cells, job_row j (map (visible false) cells)) l rows.
Proof. exact thm_jobs_table. Qed.
Print Assumptions C104_jobs_table_partial.

Theorem C104_hosts_table_partial : ∀ bold color, decorates bold → (∀ c, decorates (color c)) →
  ∀ fmt l, Forall (λ h, tidy (hs_hp h) ∧ tidy (hs_err h) ∧ tidy (fmt (hs_check h)) ∧ in_int64 (hs_nanos h)) l →
  ∃ text head rows, hosts_table bold color fmt (map Some l) = Ok text ∧ is_table text (head :: rows) ∧
    map (visible false) head = ["Host:Port"; "Status"; "Last Checked"; "Last Response Time"] ∧
    Forall2 (λ h cells, host_row fmt h (map (visible false) cells)) l rows.
Proof. exact thm_hosts_table. Qed.
Print Assumptions C104_hosts_table_partial.

(** a text is read in one way only *)
Theorem C104_one_reading : ∀ s r r', is_table s r → is_table s r' → r = r'.
Proof. exact table_unique. Qed.
Print Assumptions C104_one_reading.

(** the counts are green exactly when all runs succeeded; the count of a kind of
    failure is red exactly when there is one; nothing else is coloured *)
Theorem C104_colours : ∀ j,
  map c_color (job_cells j) !! 1%nat = Some (if decide (aj_count j = aj_success j) then Green else Black) ∧
  map c_color (job_cells j) !! 2%nat = Some (if decide (aj_count j = aj_success j) then Green else Black) ∧
  map c_color (job_cells j) !! 3%nat = Some (if decide (0 < aj_verror j) then Red else Black) ∧
  map c_color (job_cells j) !! 4%nat = Some (if decide (0 < aj_panic j) then Red else Black) ∧
  map c_color (job_cells j) !! 5%nat = Some (if decide (0 < aj_error j) then Red else Black) ∧
  map c_color (job_cells j) !! 6%nat = Some (if decide (0 < aj_junk j) then Red else Black) ∧
  ∀ i, (i = 0 ∨ 7 ≤ i < 12)%nat → map c_color (job_cells j) !! i = Some Black.
Proof. exact thm_job_colours. Qed.
Print Assumptions C104_colours.
(** a host's status is green exactly when it answered well, and red otherwise *)
Theorem C104_host_colours : ∀ fmt h, map c_color (host_cells fmt h) =
  [Black; if decide (hs_code h = 200 ∧ hs_err h = "") then Green else Red; Black; Black].
Proof. exact thm_host_colours. Qed.
Print Assumptions C104_host_colours.

(** a null among the jobs or hosts of an answer ends healthtop *)
Theorem C104_null_row_refuted : ∀ bold color l l' l1 l2 fmt,
  jobs_table bold color (l ++ None :: l') = Crash "invalid memory address or nil pointer dereference" ∧
  hosts_table bold color fmt (l1 ++ None :: l2) = Crash "invalid memory address or nil pointer dereference".
Proof. exact thm_null_tables. Qed.
Print Assumptions C104_null_row_refuted.

Example C104_example : decorates z_bold ∧ (∀ c, decorates (z_color c)) ∧ tidy (aj_name (z_job "/jobs")) ∧ ordinary (z_job "/jobs") ∧
  ∃ text rows, jobs_table z_bold z_color [Some (z_job "/jobs")] = Ok text ∧ is_table text rows ∧
    map (map (visible false)) rows = [job_columns; ["/jobs"; "3"; "2"; "0"; "0"; "1"; "0"; "1500 " +:+ mu_s; "0 ns"; "1000 ns"; "3 ms"; "4 ms"; ""]].
Proof. exact (conj (proj1 z_decorates) (conj (proj2 z_decorates) (conj (proj1 z_job_ok) (conj (proj2 z_job_ok) z_job_table)))). Qed.
