(** * Property theorems: the StatsD sink (C35-C39, C41-C43, C71-C73)

    [sd_run o sd0 h = Ok s]: a sink with options [o] reaches the local state
    [s] by processing the metrics and flushes of [h]; [sd_sent s] are the
    datagrams sent, oldest first. *)
From Verif Require Import SStatsdLoop PStatsd PStatsd2 PStatsdLoop PStatsdEx PDrain.

(** ** C35 *)
Theorem C35_datagrams_fit : ∀ o h s d,
  sd_run o sd0 h = Ok s → d ∈ sd_sent s → 1 ≤ zlen d ≤ 1440.
Proof. exact datagrams_fit. Qed.
Print Assumptions C35_datagrams_fit.

(** the goroutine never panics *)
Theorem C35_never_crashes : ∀ o h, ∃ s, sd_run o sd0 h = Ok s.
Proof. exact never_crashes. Qed.
Print Assumptions C35_never_crashes.

Example C35_example : sd_sent <$> (match sd_run ex_o sd0 ex_cmds with Ok s => Some s | _ => None end)
  = Some ["pre.e:1|c" +:+ nl +:+ "pre.j.e:1|c" +:+ nl +:+ "pre.e.error:1|c" +:+ nl +:+ "pre.j.e.error:1|c" +:+ nl;
          "pre.t:1.23|ms" +:+ nl +:+ "pre.j$b.t:1.23|ms" +:+ nl +:+ "pre.g:7.00|g" +:+ nl +:+ "pre.j.g:7.00|g" +:+ nl
            +:+ "pre.j.junk:20|ms" +:+ nl].
Proof. vm_compute. reflexivity. Qed.

(** ** C36 *)
Theorem C36_lines_whole_in_order : ∀ o h s,
  sd_run o sd0 h = Ok s → packed (sd_sent s) (sd_udp s) (sendable o (sop_cmds h)).
Proof. exact lines_packed. Qed.
Print Assumptions C36_lines_whole_in_order.

(** a flush leaves nothing behind *)
Theorem C36_flush_sends_everything : ∀ o h s,
  sd_run o sd0 (h ++ [DoFlush]) = Ok s → packed (sd_sent s) "" (sendable o (sop_cmds h)).
Proof. exact flushed_all. Qed.
Print Assumptions C36_flush_sends_everything.

Example C36_example : sendable ex_o (sop_cmds ex_cmds) !! 7%nat = Some ("pre.j.g:7.00|g" +:+ nl) ∧
  length (sendable ex_o (sop_cmds ex_cmds)) = 9%nat.
Proof. vm_compute. auto. Qed.
(** a line that is too long is dropped *)
Example C36_example_long :
  sendable (Opts "" (λ _, str_of (repeat "a"%char 1440)) false false (λ _, "0")) [CEvent "j" "e"] = [].
Proof. vm_compute. reflexivity. Qed.

(** ** C37 *)
Theorem C37_command_yields_its_lines : ∀ o h c s1 s2,
  sd_run o sd0 (h ++ [DoFlush]) = Ok s1 →
  sd_run o sd0 (h ++ [DoFlush; DoCmd c; DoFlush]) = Ok s2 →
  sd_udp s1 = "" ∧ sd_udp s2 = "" ∧
  ∃ more, sd_sent s2 = sd_sent s1 ++ more ∧ packed more "" (sendable o [c]).
Proof. exact one_command. Qed.
Print Assumptions C37_command_yields_its_lines.

Example C37_example :
  lines_of ex_o (CTiming "j" "t" 5) = ["pre.t:0.00|ms" +:+ nl; "pre.j.t:0.00|ms" +:+ nl] ∧
  lines_of ex_o (CGauge "j" "g" (fdiv (fofZ 1) (fofZ 20))) = ["pre.g:0.05|g" +:+ nl; "pre.j.g:0.05|g" +:+ nl] ∧
  lines_of ex_o (CComplete "j" 9 5) = ["pre.j:0.00|ms" +:+ nl] ∧
  lines_of (Opts "pre" sanitize_key true false (λ _, "")) (CEvent "j" "t") = ["pre.t:1|c" +:+ nl] ∧
  lines_of (Opts "pre" sanitize_key false true (λ _, "")) (CEvent "j" "t") = ["pre.j.t:1|c" +:+ nl].
Proof. vm_compute. auto 10. Qed.

(** ** C38 *)
Theorem C38_default_sanitizer_safe : ∀ o h s,
  o_san o = sanitize_key → (∀ v, plain_text (o_short o v)) →
  sd_run o sd0 h = Ok s →
  ∃ groups, sd_sent s = map str_concat groups ∧
    ∀ g l, g ∈ groups → l ∈ g →
      byte_count ":" l = 1%nat ∧ byte_count "|" l = 1%nat ∧ byte_count newline l = 1%nat ∧
      ∃ name value ty, l = name +:+ ":" +:+ value +:+ "|" +:+ ty +:+ nl ∧
        Forall name_byte (bytes_of name) ∧ (ty = "c" ∨ ty = "ms" ∨ ty = "g").
Proof. exact default_safe. Qed.
Print Assumptions C38_default_sanitizer_safe.

Example C38_example : sd_sent <$> (match sd_run ex_o sd0 [DoCmd (CEvent ("a:b|" +:+ nl) "x y"); DoFlush] with Ok s => Some s | _ => None end)
  = Some ["pre.x$y:1|c" +:+ nl +:+ "pre.a$b$$.x$y:1|c" +:+ nl].
Proof. vm_compute. reflexivity. Qed.

(** ** C39: false for an event without a name in a sink without a prefix *)
Theorem C39_names_nonempty_refuted :
  ∃ c s, sd_run ex_o0 sd0 [DoCmd c; DoFlush] = Ok s ∧
    sd_sent s = [":1|c" +:+ nl +:+ ":1|c" +:+ nl].
Proof. exact nameless. Qed.
Print Assumptions C39_names_nonempty_refuted.

Theorem C39_names_nonempty_partial : ∀ o c l,
  (∀ k, k ≠ "" → o_san o k ≠ "") → o_prefix o ≠ "" ∨ named c → l ∈ lines_of o c →
  ∃ name rest, name ≠ "" ∧ l = name +:+ ":" +:+ rest.
Proof. exact named_lines. Qed.
Print Assumptions C39_names_nonempty_partial.

(** exactly these names are empty *)
Theorem C39_nameless_exactly_partial : ∀ o parts, (∀ k, k ≠ "" → o_san o k ≠ "") →
  (metric_name o parts = "" ↔ Forall (λ p, p = "") (o_prefix o :: parts)).
Proof. exact nameless_iff. Qed.
Print Assumptions C39_nameless_exactly_partial.

Example C39_example : (∀ k, k ≠ "" → o_san ex_o0 k ≠ "") ∧ named (CEvent "" "e") ∧
  lines_of ex_o0 (CEvent "" "e") = ["e:1|c" +:+ nl; "e:1|c" +:+ nl].
Proof. split; [exact sanitize_nonempty|]. vm_compute. split; [discriminate|reflexivity]. Qed.

(** ** C41 *)
Theorem C41_drain_delivers : ∀ o tr1 i tr2 s1 s2 s3,
  lsteps o lst0 tr1 s1 → l_wd s1 = [] →
  lsteps o s1 (ADrainCall i :: tr2) s2 → no_call is_drain_call tr2 →
  lstep o s2 (ADrainDone i) s3 →
  delivered o tr1 (tr1 ++ ADrainCall i :: tr2) s3.
Proof. exact drain_delivers. Qed.
Print Assumptions C41_drain_delivers.

(** Drain goes on until the queue is empty: then all that was emitted is sent *)
Theorem C41_drain_empties_queue : ∀ o tr s s',
  lsteps o lst0 tr s → lstep o s ADrainEmpty s' → packed (sd_sent (l_sd s')) "" (sendable o (accepted tr)).
Proof. exact drain_empties. Qed.
Print Assumptions C41_drain_empties_queue.

Example C41_example : ∃ s1 s2 s3,
  lsteps ex_o lst0 [AEmit (CEvent "j" "e")] s1 ∧ l_wd s1 = [] ∧
  lsteps ex_o s1 [ADrainCall 1; ATake; AEmit (CEvent "j" "f"); ATake; ADrainTake; ADrainEmpty] s2 ∧
  lstep ex_o s2 (ADrainDone 1) s3 ∧
  sd_sent (l_sd s3) = ["pre.e:1|c" +:+ nl +:+ "pre.j.e:1|c" +:+ nl +:+ "pre.f:1|c" +:+ nl +:+ "pre.j.f:1|c" +:+ nl].
Proof. exact drain_run. Qed.

(** ** C71: false when Drain calls overlap *)
Theorem C71_overlapping_drain_delivers_refuted : ∃ s,
  lsteps ex_o lst0 [ADrainCall 1; ATake; ADrainEmpty; AEmit (CEvent "j" "e"); ADrainCall 2; ADrainDone 2] s ∧
  sd_sent (l_sd s) = [] ∧ sd_udp (l_sd s) = "" ∧ ¬ (2%nat ∈ l_wd s).
Proof. exact overlap_run. Qed.
Print Assumptions C71_overlapping_drain_delivers_refuted.
(** true whatever overlaps, unless the sink had already drained for another
    caller and was only waiting to tell it so: enough that nobody was waiting in
    Drain, or that another Drain returned first *)
Theorem C71_overlapping_drain_delivers_partial : ∀ o tr1 i tr2 s1 s2 s3,
  lsteps o lst0 tr1 s1 → lsteps o s1 (ADrainCall i :: tr2) s2 → lstep o s2 (ADrainDone i) s3 →
  l_loop s1 ≠ LDrainSend ∨ ADrainEmpty ∈ tr2 ∨ (∃ j, ADrainDone j ∈ tr2) →
  delivered o tr1 (tr1 ++ ADrainCall i :: tr2) s3.
Proof. exact drains_deliver. Qed.
Print Assumptions C71_overlapping_drain_delivers_partial.
Theorem C71_first_drain_delivers_partial : ∀ o tr1 i tr2 s1 s2 s3,
  lsteps o lst0 tr1 s1 → l_wd s1 = [] → lsteps o s1 (ADrainCall i :: tr2) s2 → lstep o s2 (ADrainDone i) s3 →
  delivered o tr1 (tr1 ++ ADrainCall i :: tr2) s3.
Proof. exact first_drain_delivers. Qed.
Print Assumptions C71_first_drain_delivers_partial.
(** two Drains at once, the second returns first *)
Example C71_example : ∃ s1 s2 s3,
  lsteps ex_o lst0 [AEmit (CEvent "j" "e"); ADrainCall 1; AEmit (CEvent "j" "f")] s1 ∧ l_loop s1 ≠ LDrainSend ∧ l_wd s1 = [1%nat] ∧
  lsteps ex_o s1 [ADrainCall 2; ATake; ATake; ADrainTake; ADrainTake; ADrainEmpty] s2 ∧ lstep ex_o s2 (ADrainDone 2) s3 ∧
  sd_sent (l_sd s3) = ["pre.e:1|c" +:+ nl +:+ "pre.j.e:1|c" +:+ nl +:+ "pre.f:1|c" +:+ nl +:+ "pre.j.f:1|c" +:+ nl].
Proof. exact two_drains. Qed.

(** ** C42: false when calls overlap *)
Theorem C42_concurrent_drains_return_refuted : ∃ tr s,
  lsteps ex_o lst0 tr s ∧ accepted tr = [] ∧ 2%nat ∈ l_wd s ∧
  ∀ tr' s', lsteps ex_o s tr' s' → no_call is_drain_call tr' → 2%nat ∈ l_wd s'.
Proof. exact drain_swallowed. Qed.
Print Assumptions C42_concurrent_drains_return_refuted.

Theorem C42_stop_during_drain_returns_refuted : ∃ tr s,
  lsteps ex_o lst0 tr s ∧ accepted tr = [] ∧ 2%nat ∈ l_ws s ∧
  ∀ tr' s', lsteps ex_o s tr' s' → no_call is_stop_call tr' → 2%nat ∈ l_ws s'.
Proof. exact stop_swallowed. Qed.
Print Assumptions C42_stop_during_drain_returns_refuted.

Theorem C42_drain_during_stop_returns_refuted : ∃ tr s,
  lsteps ex_o lst0 tr s ∧ accepted tr = [] ∧ 2%nat ∈ l_wd s ∧
  ∀ tr' s', lsteps ex_o s tr' s' → 2%nat ∈ l_wd s'.
Proof. exact drain_after_stop. Qed.
Print Assumptions C42_drain_during_stop_returns_refuted.

(** calls that do not overlap return once emitters pause: every run of the
    sink's own steps is bounded and ends only when the caller has returned *)
Theorem C42_single_drain_returns_partial : ∀ o tr1 i tr2 s1 s2,
  lsteps o lst0 tr1 s1 → no_call is_stop_call tr1 → l_wd s1 = [] →
  lsteps o s1 (ADrainCall i :: tr2) s2 → no_call is_drain_call tr2 → no_call is_stop_call tr2 →
  ∃ bound, ∀ tr3 s3, Forall internal tr3 → lsteps o s2 tr3 s3 →
    (length tr3 ≤ bound)%nat ∧ (i ∉ l_wd s3 ∨ ∃ a s4, internal a ∧ lstep o s3 a s4).
Proof. exact single_drain_returns. Qed.
Print Assumptions C42_single_drain_returns_partial.

Theorem C42_single_stop_returns_partial : ∀ o tr1 i tr2 s1 s2,
  lsteps o lst0 tr1 s1 → no_call is_stop_call tr1 → l_wd s1 = [] →
  lsteps o s1 (AStopCall i :: tr2) s2 → no_call is_drain_call tr2 → no_call is_stop_call tr2 →
  ∃ bound, ∀ tr3 s3, Forall internal tr3 → lsteps o s2 tr3 s3 →
    (length tr3 ≤ bound)%nat ∧ (i ∉ l_ws s3 ∨ ∃ a s4, internal a ∧ lstep o s3 a s4).
Proof. exact single_stop_returns. Qed.
Print Assumptions C42_single_stop_returns_partial.

Example C42_example : ∃ s1 s2,
  lsteps ex_o lst0 [AEmit (CEvent "j" "e"); ATick] s1 ∧ l_wd s1 = [] ∧
  lsteps ex_o s1 [ADrainCall 1; AEmit (CEvent "j" "f")] s2 ∧ 1%nat ∈ l_wd s2.
Proof. exact drain_pending. Qed.

(** ** C43: false, the buffer is not flushed *)
Theorem C43_stop_delivers_refuted : ∃ s,
  lsteps ex_o lst0 [AEmit (CEvent "j" "e"); AStopCall 1; ATake; ATake; AStopDone 1] s ∧
  sd_sent (l_sd s) = [] ∧
  ∀ tr' s', lsteps ex_o s tr' s' → sd_sent (l_sd s') = [].
Proof. exact stop_loses. Qed.
Print Assumptions C43_stop_delivers_refuted.

(** what does hold: everything accepted before Stop was processed, and at most
    one datagram's worth of it is lost *)
Theorem C43_stop_processes_partial : ∀ o tr1 i tr2 s1 s2 s3,
  lsteps o lst0 tr1 s1 → l_ws s1 = [] →
  lsteps o s1 (AStopCall i :: tr2) s2 → no_call is_stop_call tr2 →
  lstep o s2 (AStopDone i) s3 →
  processed o tr1 (tr1 ++ AStopCall i :: tr2) s3.
Proof. exact stop_processed. Qed.
Print Assumptions C43_stop_processes_partial.

Example C43_example : ∃ s1 s2 s3,
  lsteps ex_o lst0 [AEmit (CEvent "j" "e")] s1 ∧ l_ws s1 = [] ∧
  lsteps ex_o s1 [AStopCall 1; ATake; ATake] s2 ∧ lstep ex_o s2 (AStopDone 1) s3.
Proof. exact stop_run. Qed.

(** ** C72: an event of the job named "" counts twice *)
Theorem C72_event_counted_once_refuted : ∃ s,
  sd_run ex_o0 sd0 [DoCmd (CEvent "" "e"); DoFlush] = Ok s ∧
  sd_sent s = ["e:1|c" +:+ nl +:+ "e:1|c" +:+ nl].
Proof. exact counted_twice. Qed.
Print Assumptions C72_event_counted_once_refuted.

(** with a non-empty job and an injective sanitiser the two lines differ *)
Theorem C72_event_counted_once_partial : ∀ o j e,
  j ≠ "" → (∀ k, k ≠ "" → o_san o k ≠ "") →
  metric_name o [e] ≠ metric_name o [j; e].
Proof. exact names_differ. Qed.
Print Assumptions C72_event_counted_once_partial.

(** it is counted twice exactly for the job named "" *)
Theorem C72_exactly_partial : ∀ o j e, (∀ k, k ≠ "" → o_san o k ≠ "") →
  (metric_name o [e] = metric_name o [j; e] ↔ j = "").
Proof. exact names_differ_iff. Qed.
Print Assumptions C72_exactly_partial.
Example C72_example : (∀ k, k ≠ "" → o_san ex_o0 k ≠ "") ∧
  metric_name ex_o0 ["e"] = "e" ∧ metric_name ex_o0 ["j"; "e"] = "j.e" ∧ metric_name ex_o0 [""; "e"] = "e".
Proof. split; [exact sanitize_nonempty|]. by vm_compute. Qed.

(** ** C73: false, after Stop an Emit call can block for ever *)
Theorem C73_emit_returns_after_stop_refuted : ∃ tr s,
  lsteps ex_o lst0 tr s ∧ l_loop s = LDone ∧
  ∀ tr' s', lsteps ex_o s tr' s' → tr' = [].
Proof. exact emit_blocks. Qed.
Print Assumptions C73_emit_returns_after_stop_refuted.

(** until Stop, the queue is always served *)
Theorem C73_queue_served_before_stop_partial : ∀ o tr s,
  lsteps o lst0 tr s → no_call is_stop_call tr →
  ∃ tr' s', Forall internal tr' ∧ lsteps o s tr' s' ∧ l_q s' = [] ∧ room s'.
Proof. exact queue_served. Qed.
Print Assumptions C73_queue_served_before_stop_partial.
