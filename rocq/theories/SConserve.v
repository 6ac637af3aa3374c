(** * What an answer should hold altogether (C16) *)
From Verif Require Export SPolling.

(** all that was done is at most the retention before [t], in whole intervals *)
Definition recent (d retain : Z) (h : list (Z * aop)) (t : Z) : Prop :=
  ∀ u o, (u, o) ∈ h → slot d t - slot d u < d * (retain `div` d).
(** the total of an event's counters *)
Definition event_total (e : string) (out : list ia) : Z :=
  w64 (zsum (map (λ i, default 0 (am_events (ia_maps i) !! e)) out)).
