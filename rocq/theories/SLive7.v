(** * What healthtop must show sooner or later (C126)

    In executions without end (SFair.v). *)
From Verif Require Export SFair STopLoop.

Definition tlstep {A} (s : tloop A) (e : tlev A) (s' : tloop A) : Prop := tl_step s e = Some s'.
Definition is_answer {A} (i : nat) (e : tlev A) : Prop := ∃ r, e = LAnswer i r.
Definition is_take {A} (i : nat) (e : tlev A) : Prop := ∃ now, e = LTake i now.
Definition is_page {A} (e : tlev A) : Prop := ∃ i a, e = LAnswer i (inl a).

(** the loop overlooks no goroutine for ever (the select, and the queue of the
    senders on a channel) *)
Definition loop_fair {A} (x : exec (tloop A) (tlev A)) : Prop := ∀ i, weakly_fair tlstep (is_take i) x.
(** requests end: with a page or with an error *)
Definition requests_end {A} (x : exec (tloop A) (tlev A)) : Prop := ∀ i, weakly_fair tlstep (is_answer i) x.
(** a request ends or does not: nothing is assumed but that it is one or the other *)
Definition ends_or_not {A} (x : exec (tloop A) (tlev A)) : Prop := ∀ i, (∃ n, happens (is_answer i) x n) ∨ never (is_answer i) x.
(** the number of polls started before moment [n] *)
Definition polls_before {A} (x : exec (tloop A) (tlev A)) (n : nat) : nat := started (acts x n).
(** what the loop prints at moment [n]: the page it received last *)
Definition on_screen {A} (x : exec (tloop A) (tlev A)) (n : nat) : option A := tp_last (tl_top (x_at x n)).
