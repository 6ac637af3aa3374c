(** * A fair execution of a process (C115) *)
From Verif Require Import SLive3 PFair PPolling PStatsd PStatsdLoop PProcess3.

(** an error that was not reported before: the object at address 7 *)
Definition pl_call : scall := SCall (λ _, CEventErr "job" "event" None) (λ _, Some (7%nat, None)).
Definition pl_sinks (o : opts) (c : lconf) : list ksink := [KPoll (pst0 60 60); KStatsd o lst0; KLibrato c lgo0; KBugsnag bq0].

Local Lemma mod3 n : (n `mod` 3 = 0 ∧ S n `mod` 3 = 1 ∨ n `mod` 3 = 1 ∧ S n `mod` 3 = 2 ∨ n `mod` 3 = 2 ∧ S n `mod` 3 = 0)%nat.
Proof.
  pose proof (Nat.div_mod n 3 ltac:(lia)) as E. pose proof (Nat.mod_upper_bound n 3 ltac:(lia)) as B.
  assert (n `mod` 3 = 0 ∨ n `mod` 3 = 1 ∨ n `mod` 3 = 2)%nat as [E1|[E1|E1]] by lia; rewrite E1 in *.
  - left. split; [done|]. symmetry. apply (Nat.mod_unique _ _ (n / 3)); lia.
  - right. left. split; [done|]. symmetry. apply (Nat.mod_unique _ _ (n / 3)); lia.
  - right. right. split; [done|]. symmetry. apply (Nat.mod_unique _ _ (S (n / 3))); lia.
Qed.

(** one call; the sinks take it; then the StatsD and Librato sinks tick for ever *)
Lemma process_fair_example o lc : ∃ x, process_exec [[pl_call]] (pl_sinks o lc) x ∧ process_fair x ∧ never stops_sink x ∧ never (drains_sink 1) x.
Proof.
  set (c := CEventErr "job" "event" None). set (e := Some (7%nat, @None nat)).
  destruct (new_aggregator 60 60) as [a0|] eqn:Ea; [|done].
  destruct (step_ok 60 60 a0 [] a0 0 (OpCmd c)) as (a1&y1&E1); [lia|lia|done|done|].
  set (p0 := PSt [] PRun a0 [] [] []). set (p1 := PSt [c] PRun a0 [] [] []). set (p2 := PSt [] PRun a1 [] [] []).
  assert (Hp0 : pst0 60 60 = p0) by (unfold pst0; by rewrite Ea).
  destruct (process_total o [] sd0 (SMetric c) eq_refl) as (d1&Ed).
  set (l1 := LSt [SMetric c] LRun sd0 [] []). set (l2 := LSt [] LRun d1 [] []).
  set (w := WEventErr "event" ""). set (h1 := lib_process lc lib0 "job" w).
  set (g1 := LGo [("job", w)] LbRun lib0 []). set (g2 := LGo [] LbRun h1 []).
  set (bc := BCmd "job" "event" 7 None). set (b1 := BQ [bc] [] false). set (b2 := BQ [] [bc] false).
  set (f := λ (n : nat) (s : proc), match n with
    | 0 => (Some (QEmit 0 0 c e), Proc [Caller 1 [pl_call]] [KPoll p1; KStatsd o lst0; KLibrato lc lgo0; KBugsnag bq0])
    | 1 => (Some (QEmit 0 1 c e), Proc [Caller 2 [pl_call]] [KPoll p1; KStatsd o l1; KLibrato lc lgo0; KBugsnag bq0])
    | 2 => (Some (QEmit 0 2 c e), Proc [Caller 3 [pl_call]] [KPoll p1; KStatsd o l1; KLibrato lc g1; KBugsnag bq0])
    | 3 => (Some (QEmit 0 3 c e), Proc [Caller 4 [pl_call]] [KPoll p1; KStatsd o l1; KLibrato lc g1; KBugsnag b1])
    | 4 => (Some (QNext 0), Proc [Caller 0 []] [KPoll p1; KStatsd o l1; KLibrato lc g1; KBugsnag b1])
    | 5 => (Some (QPoll 0 (PTake 0 c)), Proc [Caller 0 []] [KPoll p2; KStatsd o l1; KLibrato lc g1; KBugsnag b1])
    | 6 => (Some (QStatsd 1 ATake), Proc [Caller 0 []] [KPoll p2; KStatsd o l2; KLibrato lc g1; KBugsnag b1])
    | 7 => (Some (QLibrato 2 GTake), Proc [Caller 0 []] [KPoll p2; KStatsd o l2; KLibrato lc g2; KBugsnag b1])
    | 8 => (Some (QBugsnag 3 BNotify), Proc [Caller 0 []] [KPoll p2; KStatsd o l2; KLibrato lc g2; KBugsnag b2])
    | _ => match s with
           | Proc cs [p; KStatsd _ (LSt _ _ d _ _); KLibrato _ (LGo _ _ h _); b] =>
               match n `mod` 3 with
               | 0 => (Some (QStatsd 1 ATick), Proc cs [p; KStatsd o (LSt [SFlush] LRun d [] []); KLibrato lc (LGo [] LbRun h []); b])
               | 1 => (Some (QStatsd 1 ATake), Proc cs [p; KStatsd o (LSt [] LRun (sd_flush d) [] []); KLibrato lc (LGo [] LbRun h []); b])
               | _ => (Some (QLibrato 2 (GTick 0 true)), Proc cs [p; KStatsd o (LSt [] LRun d [] []); KLibrato lc (LGo [] LbRun (lib_purge lc h 0 true) []); b])
               end
           | _ => (None, s)
           end
    end%nat).
  set (x := run f (proc0 [[pl_call]] (pl_sinks o lc))).
  set (st q d h := Proc [Caller 0 []] [KPoll p2; KStatsd o (LSt q LRun d [] []); KLibrato lc (LGo [] LbRun h []); KBugsnag b2]).
  set (qu n := if Nat.eqb (n `mod` 3) 1 then [SFlush] else []).
  assert (Hf : ∀ n s, (9 ≤ n)%nat → f n s = match s with
           | Proc cs [p; KStatsd _ (LSt _ _ d _ _); KLibrato _ (LGo _ _ h _); b] =>
               match n `mod` 3 with
               | 0 => (Some (QStatsd 1 ATick), Proc cs [p; KStatsd o (LSt [SFlush] LRun d [] []); KLibrato lc (LGo [] LbRun h []); b])
               | 1 => (Some (QStatsd 1 ATake), Proc cs [p; KStatsd o (LSt [] LRun (sd_flush d) [] []); KLibrato lc (LGo [] LbRun h []); b])
               | _ => (Some (QLibrato 2 (GTick 0 true)), Proc cs [p; KStatsd o (LSt [] LRun d [] []); KLibrato lc (LGo [] LbRun (lib_purge lc h 0 true) []); b])
               end%nat
           | _ => (None, s)
           end).
  { intros n s Hn. do 9 (destruct n as [|n]; [lia|]). reflexivity. }
  assert (Hinv : ∀ n, (9 ≤ n)%nat → ∃ d h, x_at x n = st (qu n) d h).
  { apply (run_inv f _ (λ n s, ∃ d h, s = st (qu n) d h)); [exists d1, h1; reflexivity|].
    intros n s Hn (d&h&->). rewrite Hf by done. unfold st, qu. destruct (mod3 n) as [[A B]|[[A B]|[A B]]]; rewrite A, B; cbn; eauto. }
  assert (Hl0 : ∀ cs l lc' g b, q_alive (Proc cs [KPoll p0; KStatsd o l; KLibrato lc' g; KBugsnag b])).
  { intros. repeat (constructor; [by cbn|]). constructor. }
  assert (Hl1 : ∀ cs l lc' g b, q_alive (Proc cs [KPoll p1; KStatsd o l; KLibrato lc' g; KBugsnag b])).
  { intros. repeat (constructor; [by cbn|]). constructor. }
  assert (Hl2 : ∀ cs l lc' g b, q_alive (Proc cs [KPoll p2; KStatsd o l; KLibrato lc' g; KBugsnag b])).
  { intros. repeat (constructor; [by cbn|]). constructor. }
  assert (Hexec : is_exec qstep x).
  { apply run_exec. intros n. destruct n as [|[|[|[|[|[|[|[|[|n]]]]]]]]].
    - unfold proc0, pl_sinks. cbn [run_at map]. rewrite Hp0. eapply (Qs_emit [Caller 0 [pl_call]] [KPoll p0; _; _; _] 0 0 pl_call [] (KPoll p0) (KPoll p1)); [apply Hl0|done|done|].
      constructor. by apply (Ps_emit p0).
    - eapply (Qs_emit [Caller 1 [pl_call]] [KPoll p1; KStatsd o lst0; _; _] 0 1 pl_call [] (KStatsd o lst0) (KStatsd o l1)); [apply Hl1|done|done|].
      constructor. by apply (St_emit o lst0).
    - eapply (Qs_emit [Caller 2 [pl_call]] [KPoll p1; KStatsd o l1; KLibrato lc lgo0; _] 0 2 pl_call [] (KLibrato lc lgo0) (KLibrato lc g1)); [apply Hl1|done|done|].
      constructor. by apply (Go_emit lc [] LbRun lib0 [] "job" w).
    - eapply (Qs_emit [Caller 3 [pl_call]] [KPoll p1; KStatsd o l1; KLibrato lc g1; KBugsnag bq0] 0 3 pl_call [] (KBugsnag bq0) (KBugsnag b1)); [apply Hl1|done|done|].
      apply (Tk_bugsnag _ _ _ bc); [done|]. apply (B_enq bq0). cbn. unfold bugsnag_chan_size. lia.
    - by apply (Qs_next [Caller 4 [pl_call]] [KPoll p1; KStatsd o l1; KLibrato lc g1; KBugsnag b1] 0 pl_call []); [apply Hl1|].
    - eapply (Qs_poll [Caller 0 []] [KPoll p1; KStatsd o l1; KLibrato lc g1; KBugsnag b1] 0 (PTake 0 c) p1 p2); [apply Hl1|done|done|]. by eapply Ps_take.
    - eapply (Qs_statsd [Caller 0 []] [KPoll p2; KStatsd o l1; KLibrato lc g1; KBugsnag b1] 1 ATake o l1 l2); [apply Hl2|done|done|]. by constructor.
    - eapply (Qs_librato [Caller 0 []] [KPoll p2; KStatsd o l2; KLibrato lc g1; KBugsnag b1] 2 GTake lc g1 g2); [apply Hl2|done|done|]. constructor.
    - eapply (Qs_bugsnag [Caller 0 []] [KPoll p2; KStatsd o l2; KLibrato lc g2; KBugsnag b1] 3 BNotify b1 b2); [apply Hl2|done|done|]. constructor.
    - set (k := S (S (S (S (S (S (S (S (S n))))))))). assert (9 ≤ k)%nat as Hk by (unfold k; lia). clearbody k.
      change (run_at f _ k) with (x_at x k). destruct (Hinv k Hk) as (d&h&->). rewrite Hf by done. unfold st, qu.
      destruct (mod3 k) as [[A B]|[[A B]|[A B]]]; rewrite A; cbn [Nat.eqb fst snd].
      + eapply (Qs_statsd [Caller 0 []] [KPoll p2; KStatsd o (LSt [] LRun d [] []); _; _] 1 ATick o _ (LSt [SFlush] LRun d [] [])); [apply Hl2|done|done|].
        by apply (St_tick o (LSt [] LRun d [] [])).
      + eapply (Qs_statsd [Caller 0 []] [KPoll p2; KStatsd o (LSt [SFlush] LRun d [] []); _; _] 1 ATake o _ (LSt [] LRun (sd_flush d) [] [])); [apply Hl2|done|done|].
        constructor.
      + eapply (Qs_librato [Caller 0 []] [KPoll p2; KStatsd o (LSt [] LRun d [] []); KLibrato lc (LGo [] LbRun h []); _] 2 (GTick 0 true) lc _ (LGo [] LbRun (lib_purge lc h 0 true) [])); [apply Hl2|done|done|].
        constructor. }
  (* what can happen from then on *)
  assert (Hstep : ∀ q d h a s', qstep (st q d h) a s' → match a with QEmit _ _ _ _ | QNext _ => False
      | QPoll _ (PTake _ _) | QPoll _ (PReadTake _ _) | QPoll _ (PShutTake _) | QPoll _ (PReadRet _ _) | QPoll _ (PShutRet _) => False
      | QPoll k _ => k = 0%nat | QStatsd k _ => k = 1%nat | QLibrato k (GTick _ _) | QLibrato k (GStop _) => k = 2%nat | QBugsnag k BShutdown => k = 3%nat | _ => False end).
  { intros q d h a s' St. remember (st q d h) as s eqn:Es.
    destruct St as [cs sk g at_ c' rest y y' Ha Hg Hk Ht|cs sk g c' rest Ha Hg|cs sk k b p p' Ha Hk Hn Hp|cs sk k b o' l l' Ha Hk Hn Hp|cs sk k b lc' l l' Ha Hk Hn Hp|cs sk k b l l' Ha Hk Hn Hp]; injection Es as -> ->.
    - destruct g as [|g]; done.
    - destruct g as [|g]; done.
    - destruct k as [|[|[|[|k]]]]; cbn in Hk; try done. injection Hk as <-. inversion Hp; subst; try done; set_solver.
    - destruct k as [|[|[|[|k]]]]; cbn in Hk; done.
    - destruct k as [|[|[|[|k]]]]; cbn in Hk; try done. injection Hk as <- <-. inversion Hp; subst; done.
    - destruct k as [|[|[|[|k]]]]; cbn in Hk; try done. injection Hk as <-. inversion Hp; subst; done. }
  assert (Hno : ∀ P : qact → Prop, (∀ q d h a s', qstep (st q d h) a s' → ¬ P a) → ∀ n, (9 ≤ n)%nat → ¬ possible qstep P (x_at x n)).
  { intros P H n Hn (a&s'&Hp&Hst). destruct (Hinv n Hn) as (d&h&E). rewrite E in Hst; by eapply H. }
  assert (Hs : ∀ P : qact → Prop, (∀ q d h a s', qstep (st q d h) a s' → ¬ P a) → strongly_fair qstep P x).
  { intros P H. by apply (strong_impossible _ _ _ 9), Hno. }
  assert (Hw : ∀ P : qact → Prop, (∀ q d h a s', qstep (st q d h) a s' → ¬ P a) → weakly_fair qstep P x).
  { intros P H. apply weak_impossible. intros n. exists (max n 9). split; [lia|]. apply Hno; [done|lia]. }
  assert (Hax : ∀ n, (9 ≤ n)%nat → x_act x n = match n `mod` 3 with 0 => Some (QStatsd 1 ATick) | 1 => Some (QStatsd 1 ATake) | _ => Some (QLibrato 2 (GTick 0 true)) end%nat).
  { intros n Hn. change (x_act x n) with (f n (x_at x n)).1. destruct (Hinv n Hn) as (d&h&->). rewrite Hf by done. unfold st. by destruct (mod3 n) as [[A B]|[[A B]|[A B]]]; rewrite A. }
  assert (Hmod : ∀ r n, (r < 3)%nat → ∃ m, (n ≤ m)%nat ∧ (9 ≤ m)%nat ∧ (m `mod` 3 = r)%nat).
  { intros r n Hr. exists (3 * (n + 3) + r)%nat. split; [lia|]. split; [lia|]. symmetry. apply (Nat.mod_unique _ _ (n + 3)); lia. }
  assert (Hact : ∀ n a, x_act x n = Some a → match a with QPoll _ (PShutCall _) | QStatsd _ (AStopCall _) | QStatsd _ (ADrainCall _) | QLibrato _ (GStop _) | QBugsnag _ BShutdown => False | _ => True end).
  { intros n a Ha. destruct (decide (9 ≤ n)%nat) as [Hn|Hn].
    - rewrite Hax in Ha by done. repeat case_match; by simplify_eq.
    - change (x_act x n) with (f n (x_at x n)).1 in Ha. do 9 (destruct n as [|n]; [by injection Ha as <-|]). lia. }
  exists x. split; [|split; [|split]].
  - constructor; [done|done|repeat constructor|]. constructor; [by exists 60, 60|]. by repeat constructor.
  - constructor.
    + intros g. apply Hs. intros q d h a s' H%Hstep. destruct a as [| |? []| |? []|? []]; try done; by intros [].
    + intros k. apply Hs. intros q d h a s' H%Hstep. destruct a as [| |? []| | |]; try done; by intros [].
    + intros k i. apply Hs. intros q d h a s' H%Hstep. destruct a as [| |? []| | |]; try done; by intros [].
    + intros k. apply Hs. intros q d h a s' H%Hstep. destruct a as [| |? []| | |]; try done; by intros [].
    + intros k. apply Hw. intros q d h a s' H%Hstep. destruct a as [| |? []| | |]; try done; by intros [].
    + intros k. apply Hw. intros q d h a s' H%Hstep. destruct a as [| |? []| | |]; try done; by intros [].
    + intros k. destruct (decide (k = 1%nat)) as [->|Hk].
      * apply weak_happens. intros n. destruct (Hmod 1%nat n ltac:(lia)) as (m&Hm&H9&E). exists m. split; [lia|]. exists (QStatsd 1 ATake). rewrite Hax, E by done. done.
      * apply Hw. intros q d h a s' H%Hstep. destruct a; try done; try (by intros []). intros [? ?]. congruence.
    + intros k. destruct (decide (k = 1%nat)) as [->|Hk].
      * apply strong_happens. intros n. destruct (Hmod 0%nat n ltac:(lia)) as (m&Hm&H9&E). exists m. split; [lia|]. exists (QStatsd 1 ATick). rewrite Hax, E by done. done.
      * apply (strong_impossible _ _ _ 9). intros n Hn (a&s'&Hp&_&Hst). destruct (Hinv n Hn) as (d&h&E). rewrite E in Hst. revert Hp. apply Hstep in Hst. destruct a; try done; try (by intros []). intros [? ?]. congruence.
    + intros k. apply Hw. intros q d h a s' H%Hstep. destruct a as [| | | |? []|]; intros Hq; try done; destruct Hq; congruence || done.
    + intros k. destruct (decide (k = 2%nat)) as [->|Hk].
      * apply weak_happens. intros n. destruct (Hmod 2%nat n ltac:(lia)) as (m&Hm&H9&E). exists m. split; [lia|]. exists (QLibrato 2 (GTick 0 true)). rewrite Hax, E by done. done.
      * apply Hw. intros q d h a s' H%Hstep. destruct a as [| | | |? []|]; intros Hq; try done; destruct Hq; congruence || done.
    + intros k. apply Hw. intros q d h a s' H%Hstep. destruct a as [| | | |? []|]; intros Hq; try done; destruct Hq; congruence || done.
    + intros k. apply Hw. intros q d h a s' H%Hstep. destruct a as [| | | | |? []]; intros Hq; try done; destruct Hq; congruence || done.
  - intros n (a&Ha%Hact&Hp). destruct a as [| |? []|? []|? []|? []]; done.
  - intros n (a&Ha%Hact&Hp). destruct a as [| |? []|? []|? []|? []]; done.
Qed.
