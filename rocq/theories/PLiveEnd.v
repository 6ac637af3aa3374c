(** * The loops of stopped sinks have ended (C132) *)
From Verif Require Import SLive11 PFair PStatsdLoop PLivePoll PLiveLibrato PLiveEx.

Lemma ended {S A} (step : S → A → S → Prop) (D : S → Prop) (Q : A → Prop) (x : exec S A) n : is_exec step x → D (x_at x n) →
  (∀ s a s', D s → step s a s' → D s' ∧ ¬ Q a) → ∀ m, (n ≤ m)%nat → ¬ happens Q x m.
Proof.
  intros Hx H0 HD. assert (H : ∀ m, (n ≤ m)%nat → D (x_at x m)).
  { induction 1 as [|m Hm IH]; [done|]. destruct (next step x m Hx) as [[_ ->]|(a&_&Hs)]; [done|]. by eapply HD. }
  intros m Hm (a&Ha&Hq). specialize (Hx m). rewrite Ha in Hx. by apply (HD _ _ _ (H m Hm) Hx).
Qed.
Lemma statsd_ends o x n i : statsd_exec o x → x_act x n = Some (AStopDone i) → ∀ m, (n < m)%nat → ¬ happens internal x m.
Proof.
  intros [Hx _] Ha. apply (ended (lstep o) (λ s, l_loop s = LDone)); [done| |].
  - specialize (Hx n). rewrite Ha in Hx. by inversion Hx.
  - intros s a s' Hd St. split; [by eapply ldone_stuck|]. destruct St; cbn in *; try done; tauto.
Qed.
Lemma poll_ends d retain x n i : poll_exec d retain x → x_act x n = Some (PShutRet i) → ∀ m, (n < m)%nat → ¬ happens by_poll_loop x m.
Proof.
  intros [Hx _] Ha. apply (ended pstep (λ s, p_loop s = PStopped)); [done| |].
  - specialize (Hx n). rewrite Ha in Hx. by inversion Hx.
  - intros s a s' Hd St. destruct St; cbn in *; try done; tauto.
Qed.
Lemma librato_ends c x n i : librato_exec c x → x_act x n = Some (GStopped i) → ∀ m, (n < m)%nat → ¬ happens by_librato_loop x m.
Proof.
  intros [Hx _] Ha. apply (ended (gostep c) (λ s, go_phase s = LbDone)); [done| |].
  - specialize (Hx n). rewrite Ha in Hx. by inversion Hx.
  - intros s a s' Hd St. destruct St; cbn in *; try done; tauto.
Qed.
Lemma bugsnag_ends x n : bugsnag_exec x → x_act x n = Some BShutdown → ∀ m, (n < m)%nat → ¬ happens (λ a, a = BNotify) x m.
Proof.
  intros [Hx _] Ha. apply (ended bstep (λ s, q_done s = true)); [done| |].
  - specialize (Hx n). rewrite Ha in Hx. by inversion Hx.
  - intros s a s' Hd St. destruct St; cbn in *; try done; by split.
Qed.

Lemma ends_examples : (∃ x n, poll_exec 60 60 x ∧ x_act x n = Some (PShutRet 3)) ∧ (∀ c, ∃ x n, librato_exec c x ∧ x_act x n = Some (GStopped 4)) ∧
  ∃ x n, bugsnag_exec x ∧ x_act x n = Some BShutdown.
Proof.
  split; [|split].
  - destruct poll_shut_example as (x&H1&H2&H3&H4). destruct (poll_shut 60 60 ltac:(done) ltac:(done) x H1 H2 0 3 H3 H4) as (m&_&Hm). by exists x, m.
  - intros c. destruct (librato_stop_example c) as (x&H1&H2&H3). destruct (librato_stop c x H1 H2 0 4 H3) as (m&_&Hm). by exists x, m.
  - exists (Exec (λ n, match n with O => bq0 | S _ => BQ [] [] true end) (λ n, match n with O => Some BShutdown | S _ => None end)), 0%nat.
    split; [|done]. split; [|done]. intros [|n]; [|done]. constructor.
Qed.
