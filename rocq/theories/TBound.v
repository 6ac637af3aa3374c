(** * How much healthd holds (C130) *)
From Verif Require Import SBound PHealthdEx PBound PBoundEx.

(** ** C130 *)
(** a host whose clock is ahead, purged minute after minute *)
Theorem C130_ahead_refuted : ∀ n : nat, ∃ hosts tr now s, hrun (hd_init hosts) (tr ++ [HPurge now]) (Ok s) ∧ well_formed tr ∧ one_zone utc tr ∧
  on_grid 60000000000 tr ∧ conf_dur tr = Some 60000000000 ∧ has_sources 0 tr [("i", "a")] ∧ (n ≤ size (hd_host s))%nat.
Proof. exact t_ahead. Qed.
Print Assumptions C130_ahead_refuted.

(** a host that writes its times with an offset: one interval is held 31 times *)
Theorem C130_zone_refuted : ∃ hosts tr now s, hrun (hd_init hosts) (tr ++ [HPurge now]) (Ok s) ∧ well_formed tr ∧ clocks_agree (tr ++ [HPurge now]) ∧
  conf_dur tr = Some 60000000000 ∧ (∀ k, now k = 5 * 60000000000) ∧ (∀ key x, reported tr key x → starts key = 0 ∧ source key = ("i", "a")) ∧
  size (hd_host s) = 31%nat.
Proof. exact t_zone. Qed.
Print Assumptions C130_zone_refuted.

(** after a purge: six intervals for everybody who reported one not older than
    five, and as many more as clocks are ahead.  Missing: hosts whose times have
    an offset; the rest of what the refutations show *)
Theorem C130_after_purge_partial : ∀ hosts tr now t d ahead srcs loc s, hrun (hd_init hosts) (tr ++ [HPurge now]) (Ok s) →
  conf_dur tr = Some d → 0 < d → 5 * d < 2 ^ 63 - 1 → 0 ≤ ahead → (∀ k, t ≤ now k) →
  one_zone loc tr → on_grid d tr → none_after (t + ahead) tr → has_sources (t - 5 * d) tr srcs →
  Z.of_nat (size (hd_host s)) ≤ Z.of_nat (length srcs) * (6 + ahead / d).
Proof. exact thm_after_purge. Qed.
Print Assumptions C130_after_purge_partial.

(** between purges: what arrived since, besides *)
Theorem C130_between_partial : ∀ hosts tr1 now tr2 t d ahead srcs loc s, hrun (hd_init hosts) (tr1 ++ HPurge now :: tr2) (Ok s) →
  conf_dur tr1 = Some d → 0 < d → 5 * d < 2 ^ 63 - 1 → 0 ≤ ahead → (∀ k, t ≤ now k) →
  one_zone loc tr1 → on_grid d tr1 → none_after (t + ahead) tr1 → has_sources (t - 5 * d) tr1 srcs →
  Z.of_nat (size (hd_host s)) ≤ Z.of_nat (length srcs) * (6 + ahead / d) + Z.of_nat (listed tr2).
Proof. exact thm_between. Qed.
Print Assumptions C130_between_partial.

(** the intervals to recalculate: at most what arrived since the last
    recalculation *)
Theorem C130_pending : ∀ hosts tr1 o tr2 s, hrun (hd_init hosts) (tr1 ++ HRecalc o :: tr2) (Ok s) → (size (hd_need s) ≤ listed tr2)%nat.
Proof. exact thm_pending. Qed.
Print Assumptions C130_pending.

(** two hosts with nine intervals each: 18 are held, and 12 after the purge *)
Example C130_example : let tr := trace xnine ["a"; "b"] in
  (∃ s now, hrun (hd_init ["a"; "b"]) (tr ++ [HPurge now]) (Ok s) ∧ (∀ k, now k = 480000000000) ∧ size (hd_host s) = (2 * 6)%nat) ∧
  size (hd_host (final xnine ["a"; "b"])) = 18%nat ∧
  conf_dur tr = Some 60000000000 ∧ one_zone utc tr ∧ on_grid 60000000000 tr ∧ none_after (480000000000 + 0) tr ∧
  has_sources (480000000000 - 5 * 60000000000) tr [("i", "a"); ("j", "b")] ∧ listed tr = 18%nat.
Proof. exact t_nine. Qed.
