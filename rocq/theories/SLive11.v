(** * The StatsD sink's flushes, and its goroutines after Stop (C132) *)
From Verif Require Export SLive MStatsdTicker.

Definition ticker_exec (o : opts) (x : exec kst kact) : Prop := is_exec (kstep o) x ∧ x_at x 0%nat = kst0.
(** steps of the goroutine that asks for flushes *)
Definition by_flusher (a : kact) : Prop := a = KRecv ∨ a = KSend.
(** goroutines go on when they can, the ticker ticks while it runs, and who
    waits for room in the queue gets their turn (the last but one follows from
    the last in classical logic) *)
Record ticker_fair (o : opts) (x : exec kst kact) : Prop := {
  tf_loop : weakly_fair (kstep o) (λ a, ∃ b, a = KSink b ∧ internal b) x;
  tf_off : weakly_fair (kstep o) (λ a, a = KOff) x;
  tf_fire : weakly_fair (kstep o) (λ a, a = KFire) x;
  tf_recv : weakly_fair (kstep o) (λ a, a = KRecv) x;
  tf_send_weak : weakly_fair (kstep o) (λ a, a = KSend) x;
  tf_send : strongly_fair (kstep o) (λ a, a = KSend) x }.

(** the execution as MStatsdLoop.v sees it *)
Definition sink_act (a : kact) : option sact :=
  match a with KSink a => Some a | KSend => Some ATick | _ => None end.
Definition sink_view (x : exec kst kact) : exec lst sact :=
  Exec (λ n, k_l (x_at x n)) (λ n, match x_act x n with Some a => sink_act a | None => None end).

(** flushes put into the queue by the next [k] steps after moment [n] *)
Fixpoint flushes_from (x : exec kst kact) (n k : nat) : nat :=
  match k with
  | 0 => 0
  | S k => match x_act x n with Some KSend => 1 | _ => 0 end + flushes_from x (S n) k
  end%nat.

(** steps of the loops of the other sinks *)
Definition by_poll_loop (a : pact) : Prop := match a with PEmit _ | PReadCall _ | PShutCall _ => False | _ => True end.
Definition by_librato_loop (a : lact) : Prop := match a with GEmit _ _ => False | _ => True end.
