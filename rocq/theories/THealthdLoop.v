(** * Theorems about healthd's goroutines (C62-C65, C80-C82) *)
From Verif Require Import SHealthdLoop PHealthd PHealthd2 PHealthd4 PHealthdEx PHealthdLoop PHealthdLoop2 PHealthdLoop3 PHealthdLoopEx PLoopMore.

(** ** C62 *)

(** Any threshold: two successive triggers are more than it apart... *)
Theorem C62_triggers_apart : ∀ th tr1 t1 tr2 t2 s, 0 ≤ th < 2 ^ 63 - 1 →
  clock_runs (tr1 ++ (t1, DSent) :: tr2 ++ [(t2, DSent)]) →
  dsteps th (DTop 0) (tr1 ++ (t1, DSent) :: tr2 ++ [(t2, DSent)]) s → t1 + th < t2.
Proof. exact thm_deb_spacing. Qed.
Print Assumptions C62_triggers_apart.
(** ...and each comes more than the threshold after the oldest of the requests
    received since the previous one, of which there is at least one. *)
Theorem C62_trigger_serves_request : ∀ th tr t s, 0 ≤ th < 2 ^ 63 - 1 → clock_runs (tr ++ [(t, DSent)]) →
  dsteps th (DTop 0) (tr ++ [(t, DSent)]) s → overdue th tr t.
Proof. exact thm_deb_served. Qed.
Print Assumptions C62_trigger_serves_request.
(** In the whole system: the loop never recalculates on a trigger twice within
    two seconds, nor without a request. *)
Theorem C62_in_healthd : ∀ hosts tr1 t1 o1 tr2 t2 o2 s,
  clock_runs (tr1 ++ (t1, HFire o1) :: tr2 ++ [(t2, HFire o2)]) →
  hlsteps (hl_init hosts) (tr1 ++ (t1, HFire o1) :: tr2 ++ [(t2, HFire o2)]) s → t1 + 2000000000 < t2.
Proof. exact thm_loop_spacing. Qed.
Print Assumptions C62_in_healthd.
Theorem C62_in_healthd_serves_request : ∀ hosts tr t o s,
  clock_runs (tr ++ [(t, HFire o)]) → hlsteps (hl_init hosts) (tr ++ [(t, HFire o)]) s → overdue 2000000000 (deb_part tr) t.
Proof. exact thm_loop_served. Qed.
Print Assumptions C62_in_healthd_serves_request.

Example C62_ex_trace : clock_runs deb_example ∧ dsteps threshold (DTop 0) deb_example (DTop 0).
Proof. split; [apply deb_example_clock|apply deb_example_runs]. Qed.
Example C62_ex_apart : 4000000001 + threshold < 8000000000.
Proof.
  eapply (C62_triggers_apart threshold (take 6 deb_example) 4000000001 (take 4 (drop 7 deb_example)) 8000000000 (DTop 0)).
  - unfold threshold. lia.
  - apply deb_example_clock.
  - apply deb_example_runs.
Qed.
(** two requests: the older one is what counts *)
Example C62_ex_pending : pending (take 6 deb_example) = [1000000000; 1500000000].
Proof. done. Qed.

(** ** C63 *)

(** The outcome of each look at the clock: triggered exactly when the oldest
    pending request is then more than the threshold old. *)
Theorem C63_first_check_after_threshold : ∀ th tr t a s, 0 ≤ th < 2 ^ 63 - 1 → clock_runs (tr ++ [(t, DCheck); a]) →
  dsteps th (DTop 0) (tr ++ [(t, DCheck); a]) s → a.2 = DSent ↔ overdue th tr t.
Proof. exact thm_deb_check. Qed.
Print Assumptions C63_first_check_after_threshold.
(** The clock is looked at after every request received and every pause. *)
Theorem C63_checked_every_time : ∀ th tr a b s, - 2 ^ 63 ≤ th < 2 ^ 63 - 1 →
  (∀ t, t ∈ map fst (tr ++ [a; b]) → 0 < t) → dsteps th (DTop 0) (tr ++ [a; b]) s →
  match a.2 with DTake | DIdle => b.2 = DCheck | DCheck => b.2 ≠ DCheck | DSent => b.2 = DTake ∨ b.2 = DIdle end.
Proof. exact thm_deb_order. Qed.
Print Assumptions C63_checked_every_time.
Theorem C63_in_healthd : ∀ hosts tr s, hlsteps (hl_init hosts) tr s → dsteps 2000000000 (DTop 0) (deb_part tr) (l_deb s).
Proof. exact deb_projection. Qed.
Print Assumptions C63_in_healthd.
(** No response is forgotten: when the loop has handed over its request and the
    debouncer has received all requests, then since the response was taken
    there was a trigger or one is pending. *)
Theorem C63_no_response_forgotten : ∀ hosts tr1 t k r t1 t2 tr2 s,
  let tr := tr1 ++ (t, HTakeResp k r t1 t2) :: tr2 in
  hlsteps (hl_init hosts) tr s → l_loop s ≠ ACrash → l_loop s ≠ AReq → l_req s = 0 →
  (∃ t' o, (t', HFire o) ∈ tr2) ∨ pending (deb_part tr) ≠ [].
Proof. exact thm_not_forgotten. Qed.
Print Assumptions C63_no_response_forgotten.

Example C63_ex_due : overdue threshold (take 5 deb_example) 4000000000.
Proof.
  apply (C63_first_check_after_threshold threshold (take 5 deb_example) 4000000000 (4000000001, DSent) (DTop 0)).
  - unfold threshold. lia.
  - apply (clock_prefix (take 7 deb_example) (drop 7 deb_example)). apply deb_example_clock.
  - econstructor; [apply Db_take|]. econstructor; [apply Db_check|]. econstructor; [apply Db_take|]. econstructor; [apply Db_check|].
    econstructor; [apply Db_idle|]. econstructor; [apply Db_check|]. econstructor; [apply Db_sent|]. constructor.
  - done.
Qed.
Example C63_ex_not_due : ¬ overdue threshold (take 3 deb_example) 1500000000.
Proof. intros (r&rest&[= <- _]&H). unfold threshold in H. lia. Qed.

(** ** C64 *)

(** A deadlock: 66 healthy hosts, one round of polls.  The debouncer sleeps
    with a request pending; 65 responses arrive meanwhile; the loop blocks on
    the full request channel, and the debouncer, the threshold now passed,
    blocks on the trigger.  From then on nothing is aggregated, no handler and
    no Stop returns. *)
Theorem C64_deadlock_refuted : ∃ hosts tr s, length hosts = 66%nat ∧ clock_runs tr ∧
  hlsteps (hl_init hosts) tr s ∧ (∀ t now, (t, HTick now) ∉ tr) ∧ (∀ t k r t1 t2, (t, HTakeResp k r t1 t2) ∈ tr → usable r) ∧
  ∀ tr' s', hlsteps s tr' s' → l_loop s' = AReq ∧ ops tr' = [] ∧ (∀ t i a, (t, HRet i a) ∉ tr') ∧ ∀ t i, (t, HStopRet i) ∉ tr'.
Proof. exact thm_deadlock. Qed.
Print Assumptions C64_deadlock_refuted.
(** What remains true.  The loop gets through while the debouncer is not about
    to trigger; *)
Theorem C64_request_taken_partial : ∀ hosts tr s t o, hlsteps (hl_init hosts) tr s → l_loop s = AReq →
  l_deb s = DTop o ∨ (l_deb s = DChk o ∧ (o = 0 ∨ t - o ≤ threshold)) →
  ∃ tr' s', hlsteps s (tr' ++ [(t, HReq)]) s' ∧ Forall (λ a, a.1 = t ∧ ∃ d, a.2 = HDeb d) tr'.
Proof. exact thm_request_taken. Qed.
Print Assumptions C64_request_taken_partial.
(** and while fewer than 64 responses were taken since the debouncer last found
    no request, its trigger can be accepted. *)
Theorem C64_trigger_taken_partial : ∀ hosts tr s t, hlsteps (hl_init hosts) tr s →
  ¬ stop_taken tr → l_loop s ≠ ACrash → taken_since_idle tr < 64 → (∃ o, l_deb s = DSnd o) →
  ∃ tr' o s', hlsteps s (tr' ++ [(t, HFire o)]) s' ∧ Forall (λ a, a.1 = t ∧ internal a.2) tr'.
Proof. exact thm_trigger_taken. Qed.
Print Assumptions C64_trigger_taken_partial.
(** Once stuck, always stuck. *)
Theorem C64_wedged_forever_partial : ∀ s tr s', wedged s → hlsteps s tr s' → l_loop s' = AReq ∧ l_deb s' = l_deb s ∧ l_hd s' = l_hd s.
Proof. exact wedged_forever. Qed.
Print Assumptions C64_wedged_forever_partial.

Example C64_ex_wedged : ∃ tr s, hlsteps (hl_init w_hosts) tr s ∧ wedged s.
Proof. destruct deadlock as (tr&s&_&H&_&Hw). eauto. Qed.
Example C64_ex_ordinary : ∃ tr s t o, hlsteps (hl_init ["h:1"]) tr s ∧ taken_since_idle tr < 64 ∧
  (t, HFire o) ∈ tr ∧ l_loop s = ASel.
Proof.
  destruct normal_runs as (o1&l&o2&a&s&H&E). eexists _, s, 3000000001, o2. split; [exact H|]. split; [cbn; lia|].
  split; [|done]. rewrite !elem_of_app. right. do 5 right. left.
Qed.

(** ** C65 *)

(** A handler that passed the flag before Stop queues its channel after the
    loop has left: it waits forever. *)
Theorem C65_handler_hangs_refuted : ∃ tr s, hlsteps (hl_init ["h:1"]) tr s ∧ open_call 1 tr = Some QIntervals ∧
  ∀ tr' s' t a, hlsteps s tr' s' → (t, HRet 1 a) ∉ tr'.
Proof. exact thm_handler_hangs. Qed.
Print Assumptions C65_handler_hangs_refuted.
(** Until the loop accepts a Stop, and unless it crashed or is stuck, every
    handler that asked can be answered, whatever else is queued. *)
Theorem C65_handler_served_partial : ∀ hosts tr s i q t, hlsteps (hl_init hosts) tr s → open_call i tr = Some q →
  ¬ stop_taken tr → l_loop s ≠ ACrash → taken_since_idle tr < 64 →
  ∃ tr' a s', hlsteps s (tr' ++ [(t, HRet i a)]) s' ∧ Forall (λ x, x.1 = t ∧ internal x.2) tr'.
Proof. exact thm_served. Qed.
Print Assumptions C65_handler_served_partial.

Example C65_ex_call : ∃ s, hlsteps (hl_init ["h:1"]) [(1, HCall 7 QHosts)] s ∧ open_call 7 [(1, HCall 7 QHosts)] = Some QHosts ∧ l_loop s = ASel.
Proof.
  eexists. split; [apply hlsteps_one, Hl_call; [done|done|]|done].
  repeat split; try done; cbn; intros; by apply not_elem_of_nil.
Qed.

(** ** C80 *)

(** When the loop takes the nil of round [k], it has taken exactly one response
    of that round from every host, and no earlier nil of it;... *)
Theorem C80_nil_means_all_hosts : ∀ hosts tr t k o s, hlsteps (hl_init hosts) (tr ++ [(t, HTakeNil k o)]) s →
  map r_hp (taken_of k tr) ≡ₚ remove_dups hosts ∧ ∀ t' o', (t', HTakeNil k o') ∉ tr.
Proof. exact thm_sentinel. Qed.
Print Assumptions C80_nil_means_all_hosts.
(** ...and takes no response of it afterwards. *)
Theorem C80_nothing_after_nil : ∀ hosts tr t k o tr' s, hlsteps (hl_init hosts) (tr ++ (t, HTakeNil k o) :: tr') s → l_loop s ≠ ACrash →
  taken_of k tr' = [].
Proof. exact thm_sentinel_after. Qed.
Print Assumptions C80_nothing_after_nil.

Example C80_ex : ∃ o s, hlsteps (hl_init ["h:1"]) (normal_prefix ++ [(9, HTakeNil 0 o)]) s ∧
  taken_of 0 normal_prefix = [w_resp "h:1"].
Proof.
  destruct normal_runs as (o1&l&o2&a&s&H&E).
  change (normal_prefix ++ [(9, HTakeNil 0 o1); (10, HTakeH 7 l); (11, HRet 7 a); (3000000000, HDeb DIdle); (3000000000, HDeb DCheck); (3000000001, HFire o2)])
    with ((normal_prefix ++ [(9, HTakeNil 0 o1)]) ++ [(10, HTakeH 7 l); (11, HRet 7 a); (3000000000, HDeb DIdle); (3000000000, HDeb DCheck); (3000000001, HFire o2)]) in H.
  apply hlsteps_app in H as (m&H1&_). exists o1, m. done.
Qed.

(** ** C81 *)

(** The aggregation state is the result of the operations the loop performed,
    one after the other, whatever the other goroutines do;... *)
Theorem C81_serial : ∀ hosts tr s, hlsteps (hl_init hosts) tr s → l_loop s ≠ ACrash → hrun (hd_init hosts) (ops tr) (Ok (l_hd s)).
Proof. exact loop_ops. Qed.
Print Assumptions C81_serial.
Theorem C81_crash_is_an_operation : ∀ hosts tr s, hlsteps (hl_init hosts) tr s → l_loop s = ACrash →
  ∃ why, hrun (hd_init hosts) (ops tr) (Crash why).
Proof. exact loop_crash. Qed.
Print Assumptions C81_crash_is_an_operation.
(** ...and a handler gets what it asked for, as of all the operations performed
    when it gets it. *)
Theorem C81_answer_current : ∀ hosts tr t i a s, hlsteps (hl_init hosts) (tr ++ [(t, HRet i a)]) s →
  ∃ q m, open_call i tr = Some q ∧ hrun (hd_init hosts) (ops tr) (Ok m) ∧
    match q with
    | QIntervals => a = AnsI (hd_pub m)
    | QHosts => ∃ l, l ≡ₚ map_to_list (hd_status m) ∧ a = AnsH (map snd l)
    end.
Proof. exact thm_answer. Qed.
Print Assumptions C81_answer_current.

Example C81_ex : ∃ o l a s m, hlsteps (hl_init ["h:1"]) (normal_prefix ++ [(9, HTakeNil 0 o); (10, HTakeH 7 l)] ++ [(11, HRet 7 (AnsH a))]) s ∧
  hrun (hd_init ["h:1"]) [HResp (w_resp "h:1") 2 2; HRecalc o] (Ok m) ∧ map hs_hp a = ["h:1"].
Proof. exact answer_example. Qed.

(** ** C82 *)

(** After Stop was called no handler gets past the flag;... *)
Theorem C82_no_call_after_stop : ∀ hosts tr1 t i tr2 s t' j q,
  hlsteps (hl_init hosts) (tr1 ++ (t, HStop i) :: tr2) s → (t', HCall j q) ∉ tr2.
Proof. exact thm_no_call_after_stop. Qed.
Print Assumptions C82_no_call_after_stop.
(** and none is refused before; *)
Theorem C82_refused_after_stop : ∀ hosts tr1 t i q tr2 s,
  hlsteps (hl_init hosts) (tr1 ++ (t, HRefuse i q) :: tr2) s → ∃ t' j, (t', HStop j) ∈ tr1.
Proof. exact thm_refused. Qed.
Print Assumptions C82_refused_after_stop.
(** ...after Stop returned nothing is aggregated or answered any more,... *)
Theorem C82_silence_after_stop : ∀ hosts tr1 t i tr2 s, hlsteps (hl_init hosts) (tr1 ++ (t, HStopRet i) :: tr2) s →
  ops tr2 = [] ∧ (∀ t i a, (t, HRet i a) ∉ tr2) ∧ (∀ t i, (t, HStopRet i) ∉ tr2).
Proof. exact thm_after_stop. Qed.
Print Assumptions C82_silence_after_stop.
(** ...and the first Stop can return, unless the loop is stuck or crashed. *)
Theorem C82_stop_returns_partial : ∀ hosts tr t0 i s t, hlsteps (hl_init hosts) (tr ++ [(t0, HStop i)]) s →
  ¬ stop_taken tr → l_loop s ≠ ACrash → taken_since_idle tr < 64 →
  ∃ tr' s', hlsteps s (tr' ++ [(t, HStopTake i); (t, HStopRet i)]) s' ∧ Forall (λ a, a.1 = t ∧ internal a.2) tr'.
Proof. exact thm_stop_returns. Qed.
Print Assumptions C82_stop_returns_partial.
(** A second Stop never returns. *)
Theorem C82_second_stop_refuted : ∃ tr s t, hlsteps (hl_init ["h:1"]) (tr ++ [(t, HStop 2)]) s ∧
  ∀ tr' s' t', hlsteps s tr' s' → (t', HStopRet 2) ∉ tr'.
Proof. exact thm_second_stop. Qed.
Print Assumptions C82_second_stop_refuted.

Example C82_ex : ∃ s, hlsteps (hl_init ["h:1"]) twice s.
Proof. destruct twice_runs as (s&H&_). eauto. Qed.
