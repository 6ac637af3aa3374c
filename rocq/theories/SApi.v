(** * What healthd's API should answer (C59, C61, C79)

    Independent of how the model computes it. *)
From Verif Require Export SHealthd MApi.

(** ** Byte order of strings: equal, a prefix, or smaller at the first
    difference *)
Definition str_lt (s t : string) : Prop :=
  (∃ c u, t = s +:+ String c u) ∨
  (∃ p a b s' t', s = p +:+ String a s' ∧ t = p +:+ String b t' ∧ (code a < code b)%N).
Definition str_le (s t : string) : Prop := s = t ∨ str_lt s t.

(** ** Any correct sorting algorithm *)

(** a strict weak order on the elements of [l] *)
Definition strict_weak {A} (less : A → A → bool) (l : list A) : Prop :=
  (∀ a, a ∈ l → less a a = false) ∧
  (∀ a b c, a ∈ l → b ∈ l → c ∈ l → less a b = true → less b c = true → less a c = true) ∧
  (∀ a b c, a ∈ l → b ∈ l → c ∈ l → less a b = false → less b c = false → less a c = false).
(** it permutes, and no element is less than an earlier one if the comparison
    makes sense *)
Definition correct_sort {A} (srt : sorting_fn A) : Prop :=
  ∀ less l, srt less l ≡ₚ l ∧ (strict_weak less l → StronglySorted (λ a b, less b a = false) (srt less l)).

(** ** Rows *)

(** a row shows the counters of the job it names *)
Definition true_row (o : ia) (r : ajob) : Prop :=
  ∃ j, ia_jobs o !! aj_name r = Some j ∧
    aj_count r = t_count (j_timer j) ∧ aj_success r = j_success j ∧ aj_verror r = j_verror j ∧
    aj_panic r = j_panic j ∧ aj_error r = j_error j ∧ aj_junk r = j_junk j ∧
    aj_sum r = t_sum (j_timer j) ∧ aj_ss r = t_ss (j_timer j) ∧
    aj_min r = t_min (j_timer j) ∧ aj_max r = t_max (j_timer j).

(** [a] may be listed before [b] *)
Inductive may_precede : string → ajob → ajob → Prop :=
  | By_name a b : str_le (aj_name a) (aj_name b) → may_precede "name" a b
  | By_count a b : aj_count b ≤ aj_count a → may_precede "count" a b
  | By_success a b : aj_success b ≤ aj_success a → may_precede "count_success" a b
  | By_verror a b : aj_verror b ≤ aj_verror a → may_precede "count_validation_error" a b
  | By_panic a b : aj_panic b ≤ aj_panic a → may_precede "count_panic" a b
  | By_error a b : aj_error b ≤ aj_error a → may_precede "count_error" a b
  | By_junk a b : aj_junk b ≤ aj_junk a → may_precede "count_junk" a b
  | By_total a b : aj_sum b ≤ aj_sum a → may_precede "total_time" a b
  | By_avg a b : fltb (aj_avg a) (aj_avg b) = false → may_precede "avg" a b
  | By_min a b : aj_min b ≤ aj_min a → may_precede "min" a b
  | By_max a b : aj_max b ≤ aj_max a → may_precede "max" a b
  | By_stddev a b : fltb (aj_stddev a) (aj_stddev b) = false → may_precede "stddev" a b.
(** the columns one can sort by *)
Definition column (sort : string) : Prop :=
  sort ∈ ["name"; "count"; "count_success"; "count_validation_error"; "count_panic"; "count_error"; "count_junk";
          "total_time"; "avg"; "min"; "max"; "stddev"].
(** the column has no NaN *)
Definition no_nan (sort : string) (rows : list ajob) : Prop :=
  ∀ r, r ∈ rows → (sort = "avg" → aj_avg r ≠ S754_nan) ∧ (sort = "stddev" → aj_stddev r ≠ S754_nan).

(** ** Decimal numbers: a non-empty string of digits stands for [n] *)
Fixpoint place_value (ds : list Z) : Z :=
  match ds with [] => 0 | d :: ds => d * 10 ^ Z.of_nat (length ds) + place_value ds end.
Definition digit_ascii (d : Z) : ascii := Ascii.ascii_of_N (Z.to_N (48 + d)).
Definition numeral (s : string) (n : Z) : Prop :=
  ∃ ds, ds ≠ [] ∧ Forall (λ d, 0 ≤ d ≤ 9) ds ∧ s = string_of_list_ascii (map digit_ascii ds) ∧ n = place_value ds.
(** [s] stands for the int64 [n], with an optional sign *)
Definition int_numeral (s : string) (n : Z) : Prop :=
  in_int64 n ∧ ((numeral s n) ∨ (∃ t, s = "+" +:+ t ∧ numeral t n) ∨ (∃ t, s = "-" +:+ t ∧ numeral t (- n))).
