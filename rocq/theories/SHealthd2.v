(** * Specifications for healthd's aggregation state, part 2 *)
From Verif Require Export SHealthd.

(** data of time [k] is found old by a purge only when all that is ever
    reported for that time has been merged: from some recalculation on no
    response mentions it, and no purge before finds data of that time old *)
Definition expires_settled (tr : list hop) (k : gotime) : Prop :=
  never_expires tr k ∨
  ∃ tra o trb, tr = tra ++ HRecalc o :: trb ∧ never_expires tra k ∧ ∀ key d, reported trb key d → key_time key ≠ k.
