(** * Property theorems: concurrent callers, several sinks (C105-C107)

    [qsteps (proc0 progs ks) tr s]: the interleaving [tr] leads new sinks [ks]
    and goroutines with the calls [progs] to [s]. *)
From Verif Require Import SProcess SServer SConserve SLibrato SStack MNum PStatsdEx PProcess PProcess2 PProcess3 PProcess4 PProcessEx.

(** ** C105 *)
(** At every moment, each sink has been told a beginning of each goroutine's
    calls: those that returned and at most the one in progress, which earlier
    sinks hear of first. *)
Theorem C105_each_caller_in_order : ∀ progs ks tr s, qsteps (proc0 progs ks) tr s → ∀ g prog, progs !! g = Some prog →
  ∀ k, (k < length ks)%nat → ∃ m, told_by tr g k = tells_sink k (take m prog) ∧
    (returned tr g ≤ m ≤ S (returned tr g))%nat ∧ (m ≤ length prog)%nat ∧
    ∀ k', (k < k' < length ks)%nat → (length (told_by tr g k') ≤ m)%nat.
Proof. exact thm_each_caller. Qed.
Print Assumptions C105_each_caller_in_order.

(** When all calls have returned, each sink has been told every call of every
    goroutine once and nothing else. *)
Theorem C105_nothing_lost_or_added : ∀ progs ks tr s, qsteps (proc0 progs ks) tr s → all_returned progs tr → ∀ k, (k < length ks)%nat →
  told tr k ≡ₚ concat (map (tells_sink k) progs).
Proof. exact thm_told_all. Qed.
Print Assumptions C105_nothing_lost_or_added.

(** What a sink was told is what its own loop accepts, so that what is proved of
    each kind of sink on its own applies to every sink of the process.  Of the
    Bugsnag sink: the reports of errors that were new to it. *)
Theorem C105_sinks_run_as_alone : ∀ progs ks tr s, qsteps (proc0 progs ks) tr s → ∀ k,
  (∀ d retain, ks !! k = Some (KPoll (pst0 d retain)) →
     ∃ p, q_sinks s !! k = Some (KPoll p) ∧ psteps (pst0 d retain) (poll_part k tr) p ∧ poll_accepted (poll_part k tr) = told tr k) ∧
  (∀ o, ks !! k = Some (KStatsd o lst0) →
     ∃ l, q_sinks s !! k = Some (KStatsd o l) ∧ lsteps o lst0 (statsd_part k tr) l ∧ accepted (statsd_part k tr) = told tr k) ∧
  (∀ c, ks !! k = Some (KLibrato c lgo0) →
     ∃ g, q_sinks s !! k = Some (KLibrato c g) ∧ gosteps c lgo0 (librato_part k tr) g ∧
       SLibrato.emitted (librato_part k tr) = for_librato (told tr k)) ∧
  (ks !! k = Some (KBugsnag bq0) →
     ∃ b, q_sinks s !! k = Some (KBugsnag b) ∧ MBugsnag.bsteps bq0 (bugsnag_part k tr) b ∧
       enqueued (bugsnag_part k tr) = for_bugsnag (heard tr k)) ∧
  (ks !! k = Some (KOther []) → q_sinks s !! k = Some (KOther (told tr k))).
Proof. exact thm_sink_parts. Qed.
Print Assumptions C105_sinks_run_as_alone.

Example C105_example :
  qsteps (proc0 pr_progs pr_sinks) pr_tr1 pr_s1 ∧ all_returned pr_progs pr_tr1 ∧
  told_by pr_tr1 0 2 = [CEvent "web" "login"; CComplete "web" Success 1000002] ∧
  told pr_tr1 0 = [CEvent "web" "login"; CEvent "web" "login"; CComplete "web" Success 1000000; CEventErr "web" "bad" (Some (Err "oops" [1%N]))] ∧
  returned (take 5 pr_tr1) 1 = 0%nat ∧ map (λ k, length (told_by (take 5 pr_tr1) 1 k)) [0; 1; 2]%nat = [1; 1; 0]%nat ∧
  SLibrato.emitted (librato_part 3 pr_tr1) = [("web", WEvent "login"); ("web", WEvent "login"); ("web", WComplete Success 1000003); ("web", WEventErr "bad" "")] ∧
  enqueued (bugsnag_part 4 pr_tr1) = [BCmd "web" "bad" 9 None] ∧
  match q_sinks pr_s1 !! 4%nat with Some (KBugsnag b) => q_sent b | _ => [] end = [BCmd "web" "bad" 9 None].
Proof. split; [apply process_run|]. split; [apply process_run|]. vm_compute. auto 10. Qed.

(** The sinks need not hear the goroutines in the same order. *)
Theorem C105_orders_may_differ : ∃ tr s,
  qsteps (proc0 [[call_of "a"]; [call_of "b"]] [KOther []; KOther []]) tr s ∧ all_returned [[call_of "a"]; [call_of "b"]] tr ∧
  told tr 0 = [CEvent "j" "a"; CEvent "j" "b"] ∧ told tr 1 = [CEvent "j" "b"; CEvent "j" "a"].
Proof. exact orders_differ. Qed.
Print Assumptions C105_orders_may_differ.

(** ** C106: false of the code.  The goroutine made one call more than the
    queue of the stopped StatsD sink holds: the call never returns, and the
    other sink never hears of it. *)
Theorem C106_stopped_sink_holds_up_nobody_refuted : ∃ tr s l, let n := S (Z.to_nat cmdChanBuffSize) in
  qsteps (proc0 [repeat one_call n] [KStatsd ex_o lst0; KOther []]) tr s ∧
  q_sinks s !! 0%nat = Some (KStatsd ex_o l) ∧ l_loop l = LDone ∧
  (∀ tr' s', qsteps s tr' s' → tr' = []) ∧
  length (told tr 1) = Z.to_nat cmdChanBuffSize ∧ returned tr 0 = Z.to_nat cmdChanBuffSize.
Proof. exact stuck_process. Qed.
Print Assumptions C106_stopped_sink_holds_up_nobody_refuted.

(** Nor is it StatsD's alone: whatever the kind of the sink, a program that stops
    it and then goes on calling can get stuck for ever in a call. *)
Theorem C106_any_kind_holds_up_refuted : ∀ x, new_sink x → usable x → (∀ l, x ≠ KOther l) →
  ∃ n calls tr s, length calls = S n ∧ qsteps (proc0 [calls] [x; KOther []]) tr s ∧
    ∀ tr' s', qsteps s tr' s' → told (tr ++ tr') 1 = told tr 1 ∧ length (told tr 1) = n ∧ returned (tr ++ tr') 0 = n.
Proof. exact all_jam. Qed.
Print Assumptions C106_any_kind_holds_up_refuted.

Example C106_kinds : ∀ x, x ∈ [KPoll (pst0 60 300); KStatsd pr_o lst0; KLibrato pr_lc lgo0; KBugsnag bq0] → new_sink x ∧ usable x ∧ ∀ l, x ≠ KOther l.
Proof.
  intros x Hx. rewrite !elem_of_cons, elem_of_nil in Hx. destruct Hx as [->|[->|[->|[->|[]]]]]; (split; [constructor|]); (split; [|done]); try done. by exists 60, 300.
Qed.

(** While no sink is stopped, no panic ends the process, and whatever happened
    the sinks can take all remaining calls of all goroutines. *)
Theorem C106_calls_return_partial : ∀ progs ks tr s, Forall new_sink ks → Forall usable ks →
  qsteps (proc0 progs ks) tr s → nobody_stops tr →
  q_alive s ∧ ∃ tr' s', Forall own_step tr' ∧ qsteps s tr' s' ∧ all_returned progs (tr ++ tr').
Proof. intros progs ks tr s Hf Hu H Hn. exact (conj (stay_alive _ _ _ _ Hf Hu H) (thm_all_return _ _ _ _ Hf Hu H Hn)). Qed.
Print Assumptions C106_calls_return_partial.

Example C106_example : Forall new_sink pr_sinks ∧ Forall usable pr_sinks ∧ nobody_stops pr_tr1 ∧
  ¬ all_returned pr_progs (take 8 pr_tr1).
Proof.
  split; [repeat constructor|]. split; [repeat constructor; by exists 60, 300|]. split; [repeat constructor|].
  intros H. specialize (H 0%nat _ eq_refl). done.
Qed.

(** ** C107 *)
(** All calls have returned and no Drain is waiting: when a Drain of the StatsD
    sink returns, a server that got the datagrams has the totals of all
    goroutines. *)
Theorem C107_statsd_totals : ∀ progs ks k o tr1 s1 l1 i tr2 s3 l3 name, clean o → all_fit o (concat (map (tells_sink k) progs)) →
  ks !! k = Some (KStatsd o lst0) →
  qsteps (proc0 progs ks) tr1 s1 → all_returned progs tr1 → q_sinks s1 !! k = Some (KStatsd o l1) → l_wd l1 = [] →
  qsteps s1 (QStatsd k (ADrainCall i) :: tr2 ++ [QStatsd k (ADrainDone i)]) s3 → no_drain_at k tr2 →
  q_sinks s3 !! k = Some (KStatsd o l3) →
  counter name (sd_sent (l_sd l3)) = counts o name (concat (map (tells_sink k) progs)).
Proof. exact thm_statsd_total. Qed.
Print Assumptions C107_statsd_totals.

(** All calls have returned and the polling sink's queue is empty: a read shows
    the totals of all goroutines, as long as the clock did not go back and
    everything happened within the retention. *)
Theorem C107_polling_totals : ∀ progs ks k d retain tr1 s1 p1 i out tr2 s2 e, 0 < d → d ≤ retain →
  ks !! k = Some (KPoll (pst0 d retain)) →
  qsteps (proc0 progs ks) tr1 s1 → all_returned progs tr1 → q_sinks s1 !! k = Some (KPoll p1) → p_q p1 = [] →
  qsteps s1 (QPoll k (PReadCall i) :: tr2 ++ [QPoll k (PReadRet i out)]) s2 →
  let h := poll_history (poll_part k (tr1 ++ QPoll k (PReadCall i) :: tr2)) in
  clock_monotone h → (∀ u o t o', (u, o) ∈ h → (t, o') ∈ h → slot d t - slot d u < d * (retain `div` d)) →
  event_total e out = i64 (length (events_of e (concat (map (tells_sink k) progs)))).
Proof. exact thm_poll_total. Qed.
Print Assumptions C107_polling_totals.

(** both sinks of one process show the two logins of the two goroutines *)
Example C107_example :
  qsteps (proc0 pr_progs pr_sinks) pr_tr1 pr_s1 ∧ all_returned pr_progs pr_tr1 ∧
  (p_q <$> poll_at pr_s1 0) = Some [] ∧ (l_wd <$> statsd_at pr_s1 1) = Some [] ∧
  (∃ s, qsteps pr_s1 (QPoll 0 (PReadCall 7) :: pr_read ++ [QPoll 0 (PReadRet 7 pr_out)]) s) ∧
  qsteps pr_s1 pr_drain_all pr_end ∧
  ((λ l, counter "pre.web.login" (sd_sent (l_sd l))) <$> statsd_at pr_end 1) = Some 2 ∧
  map ia_start pr_out = [60; 120] ∧ event_total "login" pr_out = 2 ∧
  counts pr_o "pre.web.login" (concat (map (tells_sink 1) pr_progs)) = 2 ∧
  length (events_of "login" (concat (map (tells_sink 0) pr_progs))) = 2%nat ∧
  poll_history (poll_part 0 (pr_tr1 ++ QPoll 0 (PReadCall 7) :: pr_read)) =
    [(65, OpCmd (login 0%nat)); (130, OpCmd (login 0%nat)); (131, OpCmd (finish 0%nat)); (132, OpCmd (fail 0%nat)); (140, OpTick); (150, OpRead)].
Proof.
  destruct process_run as (? & ? & ? & ? & _ & ? & ? & ? & ? & ?). do 9 (split; [assumption|]).
  vm_compute. auto.
Qed.
