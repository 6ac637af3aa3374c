(** * What healthtop should show of the emissions of processes (C121) *)
From Verif Require Export STopTable SWire SApi SHealth SSystem.

(** a row of the page that can be written, read and printed: finite numbers,
    averages within int64, a name without control characters *)
Definition legible (r : ajob) : Prop := tidy (aj_name r) ∧ ordinary r ∧ Forall float_ok [aj_ss r; aj_avg r; aj_stddev r].

(** [cells], on the screen, are the line of [job]; the totals are [total] *)
Definition job_line (job : string) (total : jctr → Z) (cells : list string) : Prop :=
  ∃ c su ve pa er ju av sd mn mx sm,
    map (visible false) cells = [job; c; su; ve; pa; er; ju; av; sd; mn; mx; sm; ""] ∧
    num_cell (total KCount) c ∧ num_cell (total KSuccess) su ∧ num_cell (total KVError) ve ∧ num_cell (total KPanic) pa ∧
    num_cell (total KError) er ∧ num_cell (total KJunk) ju ∧ cell_text (total KSum) sm.
(** what was emitted for [job] in the answers [L]: interval, process, number of
    operations of it before the answer *)
Definition emitted_for (d : Z) (tr : list sev) (L : list (Z * nat * nat)) (job : string) (c : jctr) : Z :=
  w64 (zsum (map (λ x : Z * nat * nat, tally (KJob job c) (cmds_in d x.1.1 (take x.2 (hist x.1.2 tr)))) L)).
(** the job occurs in them *)
Definition occurring (d : Z) (tr : list sev) (L : list (Z * nat * nat)) (job : string) : Prop :=
  ∃ s i k, (s, i, k) ∈ L ∧ of_job job (cmds_in d s (take k (hist i tr))) ≠ [].
