(** * Specification for Drain and Stop *)
From Verif Require Export SStatsd MStatsdLoop.

(** the metrics whose Emit call completed, in order *)
Definition accepted (tr : list sact) : list cmd :=
  omap (λ a, match a with AEmit c => Some c | _ => None end) tr.

Definition is_drain_call (a : sact) : bool := match a with ADrainCall _ => true | _ => false end.
Definition is_stop_call (a : sact) : bool := match a with AStopCall _ => true | _ => false end.

Definition no_call (f : sact → bool) (tr : list sact) : Prop := Forall (λ a, f a = false) tr.

(** steps that need no caller: the sink finishing what it has been given *)
Definition internal (a : sact) : Prop :=
  match a with AEmit _ | ATick | ADrainCall _ | AStopCall _ => False | _ => True end.

(** every metric accepted during [before] was sent: the datagrams are the
    lines of the first [n] accepted metrics, [n] covers [before], and nothing
    waits in the buffer *)
Definition delivered (o : opts) (before all : list sact) (s : lst) : Prop :=
  ∃ n, (length (accepted before) ≤ n)%nat ∧ (n ≤ length (accepted all))%nat ∧
    sd_udp (l_sd s) = "" ∧
    packed (sd_sent (l_sd s)) "" (sendable o (take n (accepted all))).

(** the same, but up to one datagram's worth of lines may still be waiting *)
Definition processed (o : opts) (before all : list sact) (s : lst) : Prop :=
  ∃ n, (length (accepted before) ≤ n)%nat ∧ (n ≤ length (accepted all))%nat ∧
    zlen (sd_udp (l_sd s)) ≤ 1440 ∧
    packed (sd_sent (l_sd s)) (sd_udp (l_sd s)) (sendable o (take n (accepted all))).
