(** * How much healthd may hold (C130)

    In terms of the list of operations alone. *)
From Verif Require Export SHealthd.

(** who reports: instance and host *)
Definition source (key : hkey) : string * string := (key.1.2, key.2).
(** when the interval reported starts *)
Definition starts (key : hkey) : Z := key.1.1.1.

(** intervals start at multiples of their length (C15) *)
Definition on_grid (d : Z) (tr : list hop) : Prop := ∀ key x, reported tr key x → (d | starts key).
(** no interval reported starts later than [t] *)
Definition none_after (t : Z) (tr : list hop) : Prop := ∀ key x, reported tr key x → starts key ≤ t.
(** [l] has everybody who reported an interval that starts at [t] or later *)
Definition has_sources (t : Z) (tr : list hop) (l : list (string * string)) : Prop :=
  ∀ key x, reported tr key x → t ≤ starts key → source key ∈ l.

(** the number of aggregations listed in the usable responses of [tr] *)
Definition listed (tr : list hop) : nat :=
  sum_list_with (λ op, match good_of op with Some r => length (r_aggs r) | None => 0%nat end) tr.

(** no clock is ahead: at every purge, what was reported until then starts at or
    before every reading *)
Definition clocks_agree (tr : list hop) : Prop := ∀ tr1 now tr2 key x k,
  tr = tr1 ++ HPurge now :: tr2 → reported tr1 key x → starts key ≤ now k.
