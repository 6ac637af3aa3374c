(** * Specification: mean and sample standard deviation (C60) *)
From Verif Require Export SFloat SMerge MApi.

Definition zlength (l : list Z) : Z := Z.of_nat (length l).
Definition mean (l : list Z) : R := (IZR (zsum l) / IZR (zlength l))%R.
Definition sq_dev (m : R) (l : list Z) : R := foldr (λ x acc, ((IZR x - m) * (IZR x - m) + acc)%R) 0%R l.
Definition sample_stddev (l : list Z) : R := R_sqrt.sqrt (sq_dev (mean l) l / (IZR (zlength l) - 1)).

(** [j] summarises the durations [l]: count and sum as int64s, the sum of
    squares up to [k] roundings *)
Definition describes (k : nat) (j : jobagg) (l : list Z) : Prop :=
  t_count (j_timer j) = w64 (zlength l) ∧ t_sum (j_timer j) = w64 (zsum l) ∧ good_ss k (t_ss (j_timer j)) l.

(** the durations a host was given are int64s *)
Definition host_int64 (h : list (Z * aop)) : Prop :=
  ∀ x, x ∈ h → match x.2 with OpCmd (CTiming _ _ n) | OpCmd (CComplete _ _ n) => in_int64 n | _ => True end.
