(** * Fair executions (C109-C112) *)
From Verif Require Import SLive PFair PPolling PStatsd PStatsdLoop.

Local Ltac no_step H := inversion H; subst; cbn; first [by intros []|set_solver|done].

(** ** the polling sink: a command, a reader; then nothing *)
Lemma poll_fair_example : ∃ x, poll_exec 60 60 x ∧ poll_fair x ∧ never is_shut_call x ∧
  x_act x 0%nat = Some (PEmit (CEvent "job" "event")) ∧ x_act x 1%nat = Some (PReadCall 7).
Proof.
  set (c := CEvent "job" "event"). set (s0 := pst0 60 60).
  destruct (new_aggregator 60 60) as [a0|] eqn:Ea; [|done].
  destruct (step_ok 60 60 a0 [] a0 0 (OpCmd c)) as (a1&y1&E1); [lia|lia|done|done|].
  destruct (step_ok 60 60 a0 [(0, OpCmd c)] a1 0 OpRead) as (a2&y2&E2); [lia|lia|done|unfold agg_run; by rewrite E1|].
  assert (∃ out, y2 = Some out) as (out&->). { cbn in E2. destruct (memory_safe_intervals a1 0) as [r|]; cbn in E2; [|done]. injection E2 as <- <-. eauto. }
  set (f := λ (n : nat) (s : pst), match n with
    | 0 => (Some (PEmit c), PSt [c] PRun a0 [] [] [])
    | 1 => (Some (PReadCall 7), PSt [c] PRun a0 [7%nat] [] [])
    | 2 => (Some (PTake 0 c), PSt [] PRun a1 [7%nat] [] [])
    | 3 => (Some (PReadTake 7 0), PSt [] (PReply 7 out) a2 [] [] [])
    | 4 => (Some (PReadRet 7 out), PSt [] PRun a2 [] [] [])
    | _ => (None, s)
    end%nat).
  assert (Hs0 : s0 = PSt [] PRun a0 [] [] []) by (unfold s0, pst0; by rewrite Ea).
  set (x := run f s0). assert (Hend : ∀ n, (5 ≤ n)%nat → x_at x n = PSt [] PRun a2 [] [] []).
  { apply (run_inv f s0 (λ _ s, s = PSt [] PRun a2 [] [] [])); [done|]. intros n s Hn ->. do 5 (destruct n; [lia|]). done. }
  exists x. assert (Hex : is_exec pstep x).
  { apply run_exec. intros n. destruct n as [|[|[|[|[|n]]]]]; cbn; rewrite ?Hs0.
    - by apply (Ps_emit (PSt [] PRun a0 [] [] [])).
    - apply (Ps_read_call (PSt [c] PRun a0 [] [] [])); [done|]. unfold p_idle. cbn. set_solver.
    - by eapply Ps_take.
    - by apply (Ps_read_take [] a1 a2 out [7%nat] [] [] 7 0); [left|].
    - constructor.
    - done. }
  assert (Hno : ∀ P : pact → Prop, (∀ a s', pstep (PSt [] PRun a2 [] [] []) a s' → ¬ P a) → ∀ n, (5 ≤ n)%nat → ¬ possible pstep P (x_at x n)).
  { intros P H n Hn. rewrite Hend by done. intros (a&s'&Hp&Hst). by apply (H a s' Hst). }
  assert (Hweak : ∀ P : pact → Prop, (∀ a s', pstep (PSt [] PRun a2 [] [] []) a s' → ¬ P a) → weakly_fair pstep P x).
  { intros P H. apply weak_impossible. intros n. exists (max n 5). split; [lia|]. apply Hno; [done|lia]. }
  split; [done|]. split; [|split; [|done]].
  - constructor.
    + apply (strong_impossible _ _ _ 5), Hno. intros a s' Hst. no_step Hst.
    + intros i. apply (strong_impossible _ _ _ 5), Hno. intros a s' Hst. no_step Hst.
    + apply (strong_impossible _ _ _ 5), Hno. intros a s' Hst. no_step Hst.
    + apply Hweak. intros a s' Hst. no_step Hst.
    + apply Hweak. intros a s' Hst. no_step Hst.
  - intros n (a&Ha&Hp). destruct n as [|[|[|[|[|n]]]]]; cbn in Ha; try done; injection Ha as <-; done.
Qed.

(** a shutdown; then nothing *)
Lemma poll_shut_example : ∃ x, poll_exec 60 60 x ∧ poll_fair x ∧ x_act x 0%nat = Some (PShutCall 3) ∧ (∀ m, happens is_shut_call x m → m = 0%nat).
Proof.
  set (s0 := pst0 60 60). destruct (new_aggregator 60 60) as [a0|] eqn:Ea; [|done].
  set (f := λ (n : nat) (s : pst), match n with
    | 0 => (Some (PShutCall 3), PSt [] PRun a0 [] [3%nat] [])
    | 1 => (Some (PShutTake 3), PSt [] PByeSend a0 [] [] [3%nat])
    | 2 => (Some (PShutRet 3), PSt [] PStopped a0 [] [] [])
    | _ => (None, s)
    end%nat).
  assert (Hs0 : s0 = PSt [] PRun a0 [] [] []) by (unfold s0, pst0; by rewrite Ea).
  set (x := run f s0). assert (Hend : ∀ n, (3 ≤ n)%nat → x_at x n = PSt [] PStopped a0 [] [] []).
  { apply (run_inv f s0 (λ _ s, s = PSt [] PStopped a0 [] [] [])); [done|]. intros n s Hn ->. do 3 (destruct n; [lia|]). done. }
  exists x. assert (Hex : is_exec pstep x).
  { apply run_exec. intros n. destruct n as [|[|[|n]]]; cbn; rewrite ?Hs0.
    - apply (Ps_shut_call (PSt [] PRun a0 [] [] [])); [done|]. unfold p_idle. cbn. set_solver.
    - apply (Ps_shut_take [] a0 [] [3%nat] [] 3). by left.
    - apply (Ps_shut_ret [] a0 [] [] [3%nat] 3). by left.
    - done. }
  assert (Hno : ∀ P : pact → Prop, (∀ a s', pstep (PSt [] PStopped a0 [] [] []) a s' → ¬ P a) → ∀ n, (3 ≤ n)%nat → ¬ possible pstep P (x_at x n)).
  { intros P H n Hn. rewrite Hend by done. intros (a&s'&Hp&Hst). by apply (H a s' Hst). }
  assert (Hweak : ∀ P : pact → Prop, (∀ a s', pstep (PSt [] PStopped a0 [] [] []) a s' → ¬ P a) → weakly_fair pstep P x).
  { intros P H. apply weak_impossible. intros n. exists (max n 3). split; [lia|]. apply Hno; [done|lia]. }
  split; [done|]. split; [|split; [done|]].
  - constructor.
    + apply (strong_impossible _ _ _ 3), Hno. intros a s' Hst. no_step Hst.
    + intros i. apply (strong_impossible _ _ _ 3), Hno. intros a s' Hst. no_step Hst.
    + apply (strong_impossible _ _ _ 3), Hno. intros a s' Hst. no_step Hst.
    + apply Hweak. intros a s' Hst. no_step Hst.
    + apply Hweak. intros a s' Hst. no_step Hst.
  - intros n (a&Ha&Hp). destruct n as [|[|[|n]]]; cbn in Ha; try done; injection Ha as <-; done.
Qed.

(** ** the StatsD sink: a metric, then ticks for ever *)
Section Statsd.
  Context (o : opts).
  Local Definition c0 : cmd := CEvent "job" "event".
  Local Definition proc (d : sd) : sd := match process_cmd o d (SMetric c0) with Ok d' => d' | Crash _ => d end.
  Local Definition good (d : sd) : Prop := ∃ h, sd_run o sd0 h = Ok d.
  Local Lemma good_proc d : good d → process_cmd o d (SMetric c0) = Ok (proc d) ∧ good (proc d).
  Proof.
    intros (h&H). destruct (process_total o h d (SMetric c0) H) as (d'&E). unfold proc. rewrite E. split; [done|].
    exists (h ++ [DoCmd c0]). by apply (run_cmd o h d c0 d').
  Qed.
  Local Lemma good_flush d : good d → good (sd_flush d).
  Proof. intros (h&H). exists (h ++ [DoFlush]). by apply run_flush. Qed.
  Local Lemma good0 : good sd0.
  Proof. by exists []. Qed.

  Local Definition f1 (n : nat) (s : lst) : option sact * lst :=
    match n with
    | O => (Some (AEmit c0), set_q s [SMetric c0])
    | _ => match l_q s with
           | [] => (Some ATick, set_q s [SFlush])
           | SFlush :: q => (Some ATake, LSt q LRun (sd_flush (l_sd s)) [] [])
           | _ :: q => (Some ATake, LSt q LRun (proc (l_sd s)) [] [])
           end
    end.
  Local Definition i1 (n : nat) (s : lst) : Prop :=
    ∃ d, good d ∧ (s = LSt [] LRun d [] [] ∨ s = LSt [SFlush] LRun d [] [] ∨ s = LSt [SMetric c0] LRun d [] []).
  Lemma statsd_fair_example : ∃ x, statsd_exec o x ∧ statsd_fair o x ∧ never stop_by x ∧ never drain_by x ∧ x_act x 0%nat = Some (AEmit c0).
  Proof.
    set (x := run f1 lst0).
    assert (Hinv : ∀ n, (1 ≤ n)%nat → i1 n (x_at x n)).
    { apply (run_inv f1 lst0 i1).
      - exists sd0. split; [apply good0|]. right. by right.
      - intros n s Hn (d&Hd&[->|[->| ->]]); (destruct n as [|n]; [lia|]); [exists d; auto|exists (sd_flush d); split; [by apply good_flush|by left]|exists (proc d); split; [by apply good_proc|by left]]. }
    exists x. split.
    { split; [|done]. apply run_exec. intros [|n]; [by apply (St_emit o lst0)|]. change (run_at f1 lst0 (S n)) with (x_at x (S n)).
      destruct (Hinv (S n) ltac:(lia)) as (d&Hd&[->|[->| ->]]).
      - by apply (St_tick o (LSt [] LRun d [] [])).
      - constructor.
      - constructor. by apply good_proc. }
    assert (Hempty : ∀ n, (1 ≤ n)%nat → ∃ m d, (n ≤ m ≤ S n)%nat ∧ (1 ≤ m)%nat ∧ x_at x m = LSt [] LRun d [] []).
    { intros n Hn. destruct n as [|n]; [lia|]. destruct (Hinv (S n) ltac:(lia)) as (d&Hd&[E|E]); [exists (S n), d; split; [lia|]; split; [lia|done]|].
      exists (S (S n)). change (x_at x (S (S n))) with (f1 (S n) (x_at x (S n))).2. destruct E as [->| ->]; cbn; eexists; (split; [lia|]); (split; [lia|done]). }
    assert (Hticks : ∀ n, ∃ m, (n ≤ m)%nat ∧ happens is_tick x m ∧ happens internal x (S m)).
    { intros n. destruct (Hempty (S n) ltac:(lia)) as (m&d&Hm&Hm1&E). exists m. destruct m as [|m]; [lia|]. split; [lia|].
      assert (E2 : x_act x (S m) = Some ATick). { change (x_act x (S m)) with (f1 (S m) (x_at x (S m))).1. by rewrite E. }
      split; [by exists ATick|]. exists ATake. split; [|done]. change (x_act x (S (S m))) with (f1 (S (S m)) (x_at x (S (S m)))).1.
      change (x_at x (S (S m))) with (f1 (S m) (x_at x (S m))).2. by rewrite E. }
    split; [|split; [|split; [|done]]].
    - constructor; [apply weak_happens|apply strong_happens]; intros n; destruct (Hticks n) as (m&?&?&?); [exists (S m); split; [lia|done]|by exists m].
    - intros n (a&Ha&Hp). change (x_act x n) with (f1 n (x_at x n)).1 in Ha. unfold f1 in Ha.
      destruct n as [|n]; [by injection Ha as <-|]. destruct (l_q (x_at x (S n))) as [|[] ?]; injection Ha as <-; done.
    - intros n (a&Ha&Hp). change (x_act x n) with (f1 n (x_at x n)).1 in Ha. unfold f1 in Ha.
      destruct n as [|n]; [by injection Ha as <-|]. destruct (l_q (x_at x (S n))) as [|[] ?]; injection Ha as <-; done.
  Qed.

  (** a Stop; then nothing happens *)
  Local Definition f3 (n : nat) (s : lst) : option sact * lst :=
    match n with
    | 0 => (Some (AStopCall 2), LSt [SStop] LRun sd0 [] [2%nat])
    | 1 => (Some ATake, LSt [] LStopSend sd0 [] [2%nat])
    | 2 => (Some (AStopDone 2), LSt [] LDone sd0 [] [])
    | _ => (None, s)
    end%nat.
  Lemma statsd_stop_example : ∃ x, statsd_exec o x ∧ statsd_fair o x ∧ x_act x 0%nat = Some (AStopCall 2) ∧ never drain_by x ∧
    (∀ m, happens stop_by x m → m = 0%nat) ∧ ∀ m, (3 ≤ m)%nat → x_act x m = None.
  Proof.
    set (x := run f3 lst0).
    assert (Hinv : ∀ n, (3 ≤ n)%nat → x_at x n = LSt [] LDone sd0 [] []).
    { apply (run_inv f3 lst0 (λ n s, s = LSt [] LDone sd0 [] [])); [done|]. intros n s Hn ->. by do 3 (destruct n as [|n]; [lia|]). }
    exists x. split.
    { split; [|done]. apply run_exec. intros [|[|[|n]]].
      - apply (St_stop_call o lst0); [done|apply not_elem_of_nil..].
      - constructor.
      - apply (St_stop_done o [] sd0 [] [2%nat] 2). by left.
      - done. }
    split; [|split; [done|split; [|split]]].
    - constructor.
      + apply weak_impossible. intros n. exists (max n 3). split; [lia|]. rewrite (Hinv (max n 3) ltac:(lia)). intros (a&s'&Hp&Hst). inversion Hst; subst; done.
      + apply (strong_impossible _ _ _ 3). intros n Hn. rewrite (Hinv n Hn). intros (a&s'&_&Hl&_). by apply Hl.
    - intros n (a&Ha&Hp). change (x_act x n) with (f3 n (x_at x n)).1 in Ha. destruct n as [|[|[|n]]]; cbn [f3 fst] in Ha; try (injection Ha as <-; done). done.
    - intros n (a&Ha&Hp). change (x_act x n) with (f3 n (x_at x n)).1 in Ha. destruct n as [|[|[|n]]]; cbn [f3 fst] in Ha; try (injection Ha as <-; done). done.
    - intros m Hm. change (x_act x m) with (f3 m (x_at x m)).1. by do 3 (destruct m as [|m]; [lia|]).
  Qed.

  (** a Drain; then ticks for ever *)
  Local Definition f4 (n : nat) (s : lst) : option sact * lst :=
    match n with
    | 0 => (Some (ADrainCall 2), LSt [SDrain] LRun sd0 [2%nat] [])
    | 1 => (Some ATake, LSt [] LDrain sd0 [2%nat] [])
    | 2 => (Some ADrainEmpty, LSt [] LDrainSend (sd_flush sd0) [2%nat] [])
    | 3 => (Some (ADrainDone 2), LSt [] LRun (sd_flush sd0) [] [])
    | _ => match l_q s with
           | [] => (Some ATick, set_q s [SFlush])
           | _ :: q => (Some ATake, LSt q LRun (sd_flush (l_sd s)) [] [])
           end
    end%nat.
  Lemma statsd_drain_example : ∃ x, statsd_exec o x ∧ statsd_fair o x ∧ x_act x 0%nat = Some (ADrainCall 2) ∧ never stop_by x ∧
    (∀ m, happens drain_by x m → m = 0%nat) ∧ (∀ m, (1 ≤ m)%nat → happens enqueues x m → 2%nat ∉ l_wd (x_at x m)).
  Proof.
    set (x := run f4 lst0).
    assert (Hinv : ∀ n, (4 ≤ n)%nat → ∃ d, x_at x n = LSt [] LRun d [] [] ∨ x_at x n = LSt [SFlush] LRun d [] []).
    { apply (run_inv f4 lst0 (λ n s, ∃ d, s = LSt [] LRun d [] [] ∨ s = LSt [SFlush] LRun d [] [])); [by eexists; left|].
      intros n s Hn (d&Hs). do 4 (destruct n as [|n]; [lia|]). cbn [f4]. destruct Hs as [->| ->]; [by eexists; right|by eexists; left]. }
    exists x. split.
    { split; [|done]. apply run_exec. intros [|[|[|[|n]]]].
      - apply (St_drain_call o lst0); [done|apply not_elem_of_nil..].
      - constructor.
      - constructor.
      - apply (St_drain_done o [] (sd_flush sd0) [2%nat] [] 2). by left.
      - change (run_at f4 lst0 (S (S (S (S n))))) with (x_at x (S (S (S (S n))))). destruct (Hinv (S (S (S (S n)))) ltac:(lia)) as (d&[->| ->]); [by apply (St_tick o (LSt [] LRun d [] []))|constructor]. }
    assert (Hticks : ∀ n, ∃ m, (n ≤ m)%nat ∧ happens is_tick x m ∧ happens internal x (S m)).
    { intros n. assert (∃ m d, (n ≤ m)%nat ∧ x_at x (S (S (S (S m)))) = LSt [] LRun d [] []) as (m&d&Hm&E).
      { destruct (Hinv (S (S (S (S n)))) ltac:(lia)) as (d&[E|E]); [by exists n, d|]. exists (S n). eexists. split; [lia|].
        change (x_at x (S (S (S (S (S n)))))) with (f4 (S (S (S (S n)))) (x_at x (S (S (S (S n)))))).2. by rewrite E. }
      exists (S (S (S (S m)))). split; [lia|]. split.
      - exists ATick. split; [|done]. change (x_act x (S (S (S (S m))))) with (f4 (S (S (S (S m)))) (x_at x (S (S (S (S m)))))).1. by rewrite E.
      - exists ATake. split; [|done]. change (x_act x (S (S (S (S (S m)))))) with (f4 (S (S (S (S (S m))))) (f4 (S (S (S (S m)))) (x_at x (S (S (S (S m)))))).2).1. by rewrite E. }
    split; [|split; [done|split; [|split]]].
    - constructor; [apply weak_happens|apply strong_happens]; intros n; destruct (Hticks n) as (m&?&?&?); [exists (S m); split; [lia|done]|by exists m].
    - intros n (a&Ha&Hp). change (x_act x n) with (f4 n (x_at x n)).1 in Ha. destruct n as [|[|[|[|n]]]]; cbn [f4 fst] in Ha; try (injection Ha as <-; done).
      destruct (l_q _); by injection Ha as <-.
    - intros n (a&Ha&Hp). change (x_act x n) with (f4 n (x_at x n)).1 in Ha. destruct n as [|[|[|[|n]]]]; cbn [f4 fst] in Ha; try (injection Ha as <-; done).
      destruct (l_q _); by injection Ha as <-.
    - intros n Hn (a&Ha&Hp). destruct n as [|[|[|[|n]]]]; [lia|injection Ha as <-; by destruct Hp..|].
      destruct (Hinv (S (S (S (S n)))) ltac:(lia)) as (d&[->| ->]); apply not_elem_of_nil.
  Qed.

  (** ** a Drain that never returns *)
  Local Definition f2 (n : nat) (s : lst) : option sact * lst :=
    match n with
    | O => (Some (ADrainCall 0), LSt [SDrain] LRun sd0 [0%nat] [])
    | 1%nat => (Some ATake, LSt [] LDrain sd0 [0%nat] [])
    | _ => match l_q s with
           | [] => (Some (AEmit c0), set_q s [SMetric c0])
           | [SMetric c] => (Some ATick, set_q s [SMetric c; SFlush])
           | SMetric _ :: q => (Some ADrainTake, LSt q LDrain (proc (l_sd s)) (l_wd s) [])
           | _ :: q => (Some ADrainTake, set_q s q)
           end
    end.
  Local Definition i2 (n : nat) (s : lst) : Prop :=
    ∃ d, good d ∧ (s = LSt [] LDrain d [0%nat] [] ∨ s = LSt [SMetric c0] LDrain d [0%nat] [] ∨ s = LSt [SMetric c0; SFlush] LDrain d [0%nat] [] ∨ s = LSt [SFlush] LDrain d [0%nat] []).
  Lemma statsd_starves : ∃ x, statsd_exec o x ∧ statsd_fair o x ∧ never stop_by x ∧ x_act x 0%nat = Some (ADrainCall 0) ∧
    (∀ m, happens drain_by x m → m = 0%nat) ∧ ∀ m i, x_act x m ≠ Some (ADrainDone i).
  Proof.
    set (x := run f2 lst0).
    assert (Hinv : ∀ n, (2 ≤ n)%nat → i2 n (x_at x n)).
    { apply (run_inv f2 lst0 i2).
      - exists sd0. split; [apply good0|]. by left.
      - intros n s Hn (d&Hd&E). do 2 (destruct n as [|n]; [lia|]). destruct E as [->|[->|[->| ->]]]; [exists d; auto|exists d; auto|exists (proc d); split; [by apply good_proc|auto]|exists d; auto]. }
    exists x. split.
    { split; [|done]. apply run_exec. intros [|[|n]].
      - apply (St_drain_call o lst0); [done|apply not_elem_of_nil..].
      - constructor.
      - change (run_at f2 lst0 (S (S n))) with (x_at x (S (S n))). destruct (Hinv (S (S n)) ltac:(lia)) as (d&Hd&[->|[->|[->| ->]]]).
        + by apply (St_emit o (LSt [] LDrain d [0%nat] [])).
        + by apply (St_tick o (LSt [SMetric c0] LDrain d [0%nat] [])).
        + constructor. by apply good_proc.
        + by constructor. }
    assert (Hnext : ∀ n d, (2 ≤ n)%nat → x_at x n = LSt [SMetric c0] LDrain d [0%nat] [] → happens is_tick x n ∧ happens internal x (S n)).
    { intros n d Hn E. do 2 (destruct n as [|n]; [lia|]). split.
      - exists ATick. split; [|done]. change (x_act x (S (S n))) with (f2 (S (S n)) (x_at x (S (S n)))).1. by rewrite E.
      - exists ADrainTake. split; [|done]. change (x_act x (S (S (S n)))) with (f2 (S (S (S n))) (f2 (S (S n)) (x_at x (S (S n)))).2).1. by rewrite E. }
    assert (Hsome : ∀ n, ∃ m d, (n ≤ m)%nat ∧ (2 ≤ m)%nat ∧ x_at x m = LSt [SMetric c0] LDrain d [0%nat] []).
    { intros n.
      assert (S1 : ∀ k d, x_at x (S (S k)) = LSt [] LDrain d [0%nat] [] → x_at x (S (S (S k))) = LSt [SMetric c0] LDrain d [0%nat] []).
      { intros k d E. change (x_at x (S (S (S k)))) with (f2 (S (S k)) (x_at x (S (S k)))).2. by rewrite E. }
      assert (S2 : ∀ k d, x_at x (S (S k)) = LSt [SFlush] LDrain d [0%nat] [] → x_at x (S (S (S k))) = LSt [] LDrain d [0%nat] []).
      { intros k d E. change (x_at x (S (S (S k)))) with (f2 (S (S k)) (x_at x (S (S k)))).2. by rewrite E. }
      assert (S3 : ∀ k d, x_at x (S (S k)) = LSt [SMetric c0; SFlush] LDrain d [0%nat] [] → x_at x (S (S (S k))) = LSt [SFlush] LDrain (proc d) [0%nat] []).
      { intros k d E. change (x_at x (S (S (S k)))) with (f2 (S (S k)) (x_at x (S (S k)))).2. by rewrite E. }
      destruct (Hinv (S (S n)) ltac:(lia)) as (d&Hd&[E|[E|[E|E]]]).
      - exists (S (S (S n))), d. split; [lia|]. split; [lia|auto].
      - exists (S (S n)), d. split; [lia|]. split; [lia|done].
      - exists (S (S (S (S (S n))))), (proc d). split; [lia|]. split; [lia|]. auto.
      - exists (S (S (S (S n)))), d. split; [lia|]. split; [lia|]. auto. }
    assert (Hact : ∀ n a, x_act x n = Some a → n = 0%nat ∧ a = ADrainCall 0 ∨ a = ATake ∨ a = AEmit c0 ∨ a = ATick ∨ a = ADrainTake).
    { intros n a Ha. destruct n as [|[|n]]; [left; split; [done|]; by injection Ha|right; left; by injection Ha|]. right. right.
      change (x_act x (S (S n))) with (f2 (S (S n)) (x_at x (S (S n)))).1 in Ha. unfold f2 in Ha.
      destruct (l_q (x_at x (S (S n)))) as [|[] [|? ?]]; injection Ha as <-; auto. }
    split; [|split; [|split; [done|split]]].
    - constructor; [apply weak_happens|apply strong_happens]; intros n; destruct (Hsome n) as (m&d&Hm&Hm2&E); destruct (Hnext m d Hm2 E); [exists (S m); split; [lia|done]|by exists m].
    - intros n (a&Ha&Hp). destruct (Hact n a Ha) as [[_ ->]|[->|[->|[->| ->]]]]; done.
    - intros m (a&Ha&Hp). destruct (Hact m a Ha) as [[? ->]|[->|[->|[->| ->]]]]; done.
    - intros m i Ha. destruct (Hact m _ Ha) as [[_ ?]|[?|[?|[?|?]]]]; done.
  Qed.
End Statsd.

(** ** the Librato sink: an event, then ticks for ever *)
Lemma librato_fair_example c : ∃ x, librato_exec c x ∧ librato_fair c x ∧ never is_gstop x ∧ x_act x 0%nat = Some (GEmit "job" (WEvent "event")).
Proof.
  set (f := λ (n : nat) (s : lgo), match n with
    | O => (Some (GEmit "job" (WEvent "event")), LGo [("job", WEvent "event")] LbRun lib0 [])
    | 1%nat => (Some GTake, LGo [] LbRun (lib_process c lib0 "job" (WEvent "event")) [])
    | _ => (Some (GTick 0 true), LGo [] LbRun (lib_purge c (go_lib s) 0 true) [])
    end).
  set (x := run f lgo0).
  assert (Hinv : ∀ n, (2 ≤ n)%nat → ∃ l, x_at x n = LGo [] LbRun l []).
  { apply (run_inv f lgo0 (λ _ s, ∃ l, s = LGo [] LbRun l [])); [by eexists|]. intros n s Hn (l&->). do 2 (destruct n; [lia|]). by eexists. }
  exists x. split; [|split; [|split; [|done]]].
  - split; [|done]. apply run_exec. intros [|[|n]]; [by apply (Go_emit c [])|constructor|].
    change (run_at f lgo0 (S (S n))) with (x_at x (S (S n))). destruct (Hinv (S (S n)) ltac:(lia)) as (l&->). constructor.
  - assert (Hno : ∀ P : lact → Prop, (∀ l a s', gostep c (LGo [] LbRun l []) a s' → ¬ P a) → weakly_fair (gostep c) P x).
    { intros P H. apply weak_impossible. intros n. exists (S (S n)). split; [lia|]. destruct (Hinv (S (S n)) ltac:(lia)) as (l&->).
      intros (a&s'&Hp&Hst). by apply (H l a s' Hst). }
    constructor.
    + apply Hno. intros l a s' Hst. no_step Hst.
    + apply weak_happens. intros n. exists (S (S n)). split; [lia|]. by exists (GTick 0 true).
    + apply Hno. intros l a s' Hst. no_step Hst.
  - intros n (a&Ha&Hp). destruct n as [|[|n]]; injection Ha as <-; done.
Qed.

(** a Stop; then nothing *)
Lemma librato_stop_example c : ∃ x, librato_exec c x ∧ librato_fair c x ∧ x_act x 0%nat = Some (GStop 4).
Proof.
  set (f := λ (n : nat) (s : lgo), match n with O => (Some (GStop 4), LGo [] LbAck lib0 [4%nat]) | 1%nat => (Some (GStopped 4), LGo [] LbDone lib0 []) | _ => (None, s) end).
  set (x := run f lgo0).
  assert (Hinv : ∀ n, (2 ≤ n)%nat → x_at x n = LGo [] LbDone lib0 []).
  { apply (run_inv f lgo0 (λ _ s, s = LGo [] LbDone lib0 [])); [done|]. intros n s Hn ->. do 2 (destruct n; [lia|]). done. }
  exists x. split; [|split; [|done]].
  - split; [|done]. apply run_exec. intros [|[|n]]; [|apply (Go_stopped c [] lib0 [4%nat] 4); by left|done].
    apply (Go_stop c [] lib0 [] 4). apply not_elem_of_nil.
  - assert (Hno : ∀ P : lact → Prop, (∀ a s', gostep c (LGo [] LbDone lib0 []) a s' → ¬ P a) → weakly_fair (gostep c) P x).
    { intros P H. apply weak_impossible. intros n. exists (S (S n)). split; [lia|]. rewrite Hinv by lia. intros (a&s'&Hp&Hst). by apply (H a s' Hst). }
    constructor; apply Hno; intros a s' Hst; no_step Hst.
Qed.

(** ** the Bugsnag sink: a report; then nothing *)
Lemma bugsnag_fair_example : ∃ x, bugsnag_exec x ∧ bugsnag_fair x ∧ never (λ a, a = BShutdown) x ∧ x_act x 0%nat = Some (BEnqueue (BCmd "job" "event" 1 None)).
Proof.
  set (b := BCmd "job" "event" 1 None).
  set (f := λ (n : nat) (s : bq), match n with O => (Some (BEnqueue b), BQ [b] [] false) | 1%nat => (Some BNotify, BQ [] [b] false) | _ => (None, s) end).
  set (x := run f bq0).
  assert (Hinv : ∀ n, (2 ≤ n)%nat → x_at x n = BQ [] [b] false).
  { apply (run_inv f bq0 (λ _ s, s = BQ [] [b] false)); [done|]. intros n s Hn ->. do 2 (destruct n; [lia|]). done. }
  exists x. split; [|split; [|split; [|done]]].
  - split; [|done]. apply run_exec. intros [|[|n]]; [|constructor|done]. apply (B_enq bq0). cbn. unfold bugsnag_chan_size. lia.
  - apply weak_impossible. intros n. exists (S (S n)). split; [lia|]. rewrite Hinv by lia. intros (a&s'&->&Hst). inversion Hst.
  - intros n (a&Ha&->). destruct n as [|[|n]]; done.
Qed.
