(** * What a table should show (C104) *)
From Verif Require Export MTopTable STop.

(** text/tabwriter: a tab ends a cell, a newline ends a line; vertical tab and
    form feed act as these *)
Definition special (c : ascii) : Prop := zcode c ∈ [9; 10; 11; 12].
Definition plain (s : string) : Prop := ∀ c, c ∈ bytes_of s → ¬ special c.
(** [text] is a table with these rows of cells *)
Inductive is_table : string → list (list string) → Prop :=
  | IT_nil : is_table "" []
  | IT_row cells rest rows : cells ≠ [] → Forall plain cells → is_table rest rows →
      is_table (String.concat tab_s cells +:+ nl_s +:+ rest) (cells :: rows).

(** what is seen of a text with escape sequences ESC [ ... m *)
Fixpoint visible (inside : bool) (s : string) : string :=
  match s with
  | EmptyString => EmptyString
  | String c s' =>
      if inside then visible (negb (Ascii.eqb c "m")) s'
      else if Ascii.eqb c esc then visible true s'
      else String c (visible false s')
  end.
(** a change of style *)
Definition sgr (s : string) : Prop := ∃ d, s = String esc "[" +:+ d +:+ "m" ∧ plain d ∧ "m"%char ∉ bytes_of d.
(** goterm.Bold, goterm.Color c: the text between two changes of style *)
Definition decorates (f : string → string) : Prop :=
  ∃ p q, sgr p ∧ sgr q ∧ ∀ s, plain s → f s = p +:+ s +:+ q.
(** a text without special characters and escape sequences *)
Definition tidy (s : string) : Prop := plain s ∧ esc ∉ bytes_of s.

(** what the cells of a row should read *)
Definition num_cell (n : Z) (t : string) : Prop := int_numeral t n.
(** the whole nanoseconds of an average *)
Definition whole (f : f64) (n : Z) : Prop :=
  match f with
  | S754_zero _ => n = 0
  | S754_finite s m e => ∀ a, (if s then - n else n) = a → 0 ≤ a ∧
      (if decide (0 ≤ e) then a = Zpos m * 2 ^ e else a * 2 ^ (- e) ≤ Zpos m < (a + 1) * 2 ^ (- e))
  | _ => False
  end.
Definition job_row (j : ajob) (l : list string) : Prop :=
  ∃ c su ve pa er ju av sd mn mx sm na ns,
    l = [aj_name j; c; su; ve; pa; er; ju; av; sd; mn; mx; sm; ""] ∧
    num_cell (aj_count j) c ∧ num_cell (aj_success j) su ∧ num_cell (aj_verror j) ve ∧ num_cell (aj_panic j) pa ∧
    num_cell (aj_error j) er ∧ num_cell (aj_junk j) ju ∧
    whole (aj_avg j) na ∧ cell_text na av ∧ whole (aj_stddev j) ns ∧ cell_text ns sd ∧
    cell_text (aj_min j) mn ∧ cell_text (aj_max j) mx ∧ cell_text (aj_sum j) sm.
Definition host_row (fmt : Z → string) (h : hstatus) (l : list string) : Prop :=
  ∃ st t, l = [hs_hp h; st; fmt (hs_check h); t; ""] ∧ cell_text (hs_nanos h) t ∧
    (hs_code h = 200 ∧ hs_err h = "" → st = "Success") ∧
    (¬ (hs_code h = 200 ∧ hs_err h = "") → hs_check h = 0 → st = "Unknown") ∧
    (¬ (hs_code h = 200 ∧ hs_err h = "") → hs_check h ≠ 0 → st = "Failure: " +:+ hs_err h).
(** the numbers of a job are int64s, its averages finite and within int64 *)
Definition ordinary (j : ajob) : Prop :=
  Forall in_int64 [aj_count j; aj_success j; aj_verror j; aj_panic j; aj_error j; aj_junk j; aj_sum j; aj_min j; aj_max j] ∧
  (∃ n, whole (aj_avg j) n ∧ in_int64 n) ∧ (∃ n, whole (aj_stddev j) n ∧ in_int64 n).
