(** * What healthtop's loops should show (C103)

    In terms of the events alone: pages are told apart by the poll that got
    them and by when healthd answered. *)
From Verif Require Export MTopLoop.

(** what healthd answered, in the order it did *)
Definition answers {A} (tr : list (tlev A)) : list (nat * (A + string)) :=
  omap (λ e, match e with LAnswer i r => Some (i, r) | _ => None end) tr.
(** the polls received from, in order *)
Definition takes {A} (tr : list (tlev A)) : list nat :=
  omap (λ e, match e with LTake i _ => Some i | _ => None end) tr.
(** the last page healthd answered with *)
Definition newest_page {A} (tr : list (tlev A)) : option A :=
  last (omap (λ x : nat * (A + string), match x.2 with inl a => Some a | inr _ => None end) (answers tr)).
(** the polls started: the first one, and one at every tick *)
Definition started {A} (tr : list (tlev A)) : nat :=
  S (length (omap (λ e, match e with LTick => Some tt | _ => None end) tr)).
(** all of them are over *)
Definition all_over {A} (tr : list (tlev A)) : Prop := ∀ i, (i < started tr)%nat → i ∈ takes tr.
(** a second is enough for a poll *)
Definition one_at_a_time {A} (tr : list (tlev A)) : Prop := ∀ tr1 tr2, tr = tr1 ++ LTick :: tr2 → all_over tr1.
(** when the loop received something *)
Definition take_times {A} (tr : list (tlev A)) : list Z :=
  omap (λ e, match e with LTake _ now => Some now | _ => None end) tr.
(** the clock is past Go's zero time and moves between two of them *)
Definition clocked {A} (tr : list (tlev A)) : Prop := Forall (λ t, 0 < t) (take_times tr) ∧ StronglySorted Z.lt (take_times tr).
