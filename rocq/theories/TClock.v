(** * The aggregator whatever its clock does: C136, and exactly when C18 holds *)
From Verif Require Import SClock PClock.

(** ** C136 *)
(** every history has one division into visits *)
Theorem C136_visits : ∀ d h, ∃ vs, visits d h vs ∧ ∀ vs', visits d h vs' → vs' = vs.
Proof. exact thm_one_division. Qed.
Print Assumptions C136_visits.

(** GetMetrics shows the last visits, as many as are retained, each with what
    was said during it *)
Theorem C136_any_clock : ∀ d retain h t vs,
  0 < d → d ≤ retain → visits d (h ++ [(t, OpRead)]) vs →
  ∃ out, get_metrics d retain h t = Ok out ∧
    Forall2 (λ v i, ia_start i = v.1 ∧ told (hist_cmds v.2) i) (lastn (Z.to_nat (retain `div` d)) vs) out.
Proof. exact thm_any_clock. Qed.
Print Assumptions C136_any_clock.

(** the answers count the events of these visits, *)
Theorem C136_event_totals : ∀ d retain h t vs out e,
  0 < d → d ≤ retain → visits d (h ++ [(t, OpRead)]) vs → get_metrics d retain h t = Ok out →
  event_total e out = i64 (length (events_of e (hist_cmds (concat (map snd (lastn (Z.to_nat (retain `div` d)) vs)))))).
Proof. exact thm_clock_total. Qed.
Print Assumptions C136_event_totals.

(** hence all of them as long as no more visits were made than are retained *)
Theorem C136_nothing_lost : ∀ d retain h t vs out e,
  0 < d → d ≤ retain → visits d (h ++ [(t, OpRead)]) vs → get_metrics d retain h t = Ok out →
  Z.of_nat (length vs) ≤ retain `div` d → event_total e out = i64 (length (events_of e (hist_cmds h))).
Proof. exact thm_all_counted. Qed.
Print Assumptions C136_nothing_lost.

(** a clock that goes 10, 70, 75, 50, 51 and reads 55: three visits, the last
    to the interval of the first *)
Example C136_visits_example : visits 60 (back_h ++ [(55, OpRead)]) back_vs ∧ map fst back_vs = [0; 60; 0].
Proof. split; [exact back_visits|reflexivity]. Qed.
Example C136_example :
  match get_metrics 60 180 back_h 55 with
  | Ok out => map (λ i, (ia_start i, ia_serial i, am_events (ia_maps i) !! "a")) out = [(0, 1, Some 1); (60, 1, Some 1); (0, 2, Some 1)] ∧ event_total "a" out = 3
  | Crash _ => False end ∧
  (** two retained: the first visit is gone, although nothing is old *)
  match get_metrics 60 120 back_h 55 with
  | Ok out => map (λ i, (ia_start i, ia_serial i)) out = [(60, 1); (0, 2)] ∧ event_total "a" out = 2
  | Crash _ => False end.
Proof. vm_compute. auto. Qed.

(** ** C18: one entry per interval exactly when no interval is visited twice
    among the visits shown *)
Theorem C18_one_entry_exactly_partial : ∀ d retain h t vs out,
  0 < d → d ≤ retain → visits d (h ++ [(t, OpRead)]) vs → get_metrics d retain h t = Ok out →
  (NoDup (map ia_start out) ↔ NoDup (map fst (lastn (Z.to_nat (retain `div` d)) vs))).
Proof. exact thm_distinct_iff. Qed.
Print Assumptions C18_one_entry_exactly_partial.
Example C18_exactly_example :
  ¬ NoDup (map fst (lastn (Z.to_nat (180 `div` 60)) back_vs)) ∧ NoDup (map fst (lastn (Z.to_nat (120 `div` 60)) back_vs)).
Proof. split; [by apply (bool_decide_unpack (¬ NoDup _)); vm_compute|by apply (bool_decide_unpack (NoDup _)); vm_compute]. Qed.
