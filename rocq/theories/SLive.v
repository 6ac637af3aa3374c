(** * What must happen sooner or later (C109-C114)

    In executions without end (SFair.v), under fairness assumptions about the
    goroutines: a goroutine that can go on does so, and a select does not
    overlook a case forever. *)
From Verif Require Export SFair SPolling SStatsdLoop SLibrato SStack.

(** ** the polling sink *)
Definition is_take (a : pact) : Prop := match a with PTake _ _ => True | _ => False end.
Definition is_read_take (i : nat) (a : pact) : Prop := match a with PReadTake j _ => j = i | _ => False end.
Definition is_shut_call (a : pact) : Prop := match a with PShutCall _ => True | _ => False end.
Definition is_shut_take (a : pact) : Prop := match a with PShutTake _ => True | _ => False end.
Definition is_shut_ret (a : pact) : Prop := match a with PShutRet _ => True | _ => False end.
(** the loop takes from the queue, from each reader, and from doneChan, and an
    answer for a waiting caller is received *)
Record poll_fair (x : exec pst pact) : Prop := {
  pf_take : strongly_fair pstep is_take x;
  pf_read : ∀ i, strongly_fair pstep (is_read_take i) x;
  pf_shut : strongly_fair pstep is_shut_take x;
  pf_read_ret : weakly_fair pstep is_read_ret x;
  pf_shut_ret : weakly_fair pstep is_shut_ret x }.
Definition poll_exec (d retain : Z) (x : exec pst pact) : Prop := is_exec pstep x ∧ x_at x 0%nat = pst0 d retain.

(** ** the StatsD sink *)
Definition is_tick (a : sact) : Prop := a = ATick.
(** the loop goes on when it can, and the ticker gets its turn until the loop
    has left: it is stopped then (statsd_sink.go:190) *)
Definition ticking (o : opts) (s : lst) (a : sact) (s' : lst) : Prop := l_loop s ≠ LDone ∧ lstep o s a s'.
Record statsd_fair (o : opts) (x : exec lst sact) : Prop := {
  sf_loop : weakly_fair (lstep o) internal x;
  sf_tick : strongly_fair (ticking o) is_tick x }.
Definition statsd_exec (o : opts) (x : exec lst sact) : Prop := is_exec (lstep o) x ∧ x_at x 0%nat = lst0.
Definition drain_by (a : sact) : Prop := is_drain_call a = true.
Definition stop_by (a : sact) : Prop := is_stop_call a = true.
(** something is put into the queue *)
Definition enqueues (a : sact) : Prop := ¬ internal a.

(** ** the Librato sink *)
Definition is_gtake (a : lact) : Prop := a = GTake.
Definition is_gtick (a : lact) : Prop := match a with GTick _ _ => True | _ => False end.
Definition is_gstop (a : lact) : Prop := match a with GStop _ => True | _ => False end.
Definition is_gstopped (a : lact) : Prop := match a with GStopped _ => True | _ => False end.
Record librato_fair (c : lconf) (x : exec lgo lact) : Prop := {
  gf_take : weakly_fair (gostep c) is_gtake x;
  gf_tick : weakly_fair (gostep c) is_gtick x;
  gf_stopped : weakly_fair (gostep c) is_gstopped x }.
Definition librato_exec (c : lconf) (x : exec lgo lact) : Prop := is_exec (gostep c) x ∧ x_at x 0%nat = lgo0.

(** ** the Bugsnag sink *)
Definition bugsnag_exec (x : exec bq bact) : Prop := is_exec bstep x ∧ x_at x 0%nat = bq0.
Definition bugsnag_fair (x : exec bq bact) : Prop := weakly_fair bstep (λ a, a = BNotify) x.
