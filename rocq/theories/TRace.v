(** * Property theorems: several goroutines at once (C119, C120)

    [executes sof w progs s tr]: goroutines that make the calls [progs], and the
    loops of the Bugsnag and polling sinks, reach [s]; [tr] is what happened. *)
From Verif Require Import SRace PRace PRaceEx.

(** ** C119: an error is notified once however many goroutines report it *)
Theorem C119_notified_twice_refuted : ∃ sof w progs s tr b e, no_setup progs ∧ fresh_queues w ∧ sh_flag w e = false ∧
  (∀ t, times b (sh_sinks w t) = 1%nat) ∧ executes sof w progs s tr ∧ sends b e tr = 2%nat.
Proof. exact thm_twice_refuted. Qed.
Print Assumptions C119_notified_twice_refuted.
(** at most as often as it was reported before a report returned, and at least
    once when one has returned *)
Theorem C119_notified_partial : ∀ sof w progs b e s tr, no_setup progs → sh_flag w e = false → (∀ t, times b (sh_sinks w t) = 1%nat) →
  executes sof w progs s tr → (sends b e tr ≤ overlapping e tr)%nat ∧ (existsb (returned e) tr = true → 1 ≤ sends b e tr)%nat.
Proof. exact thm_once. Qed.
Print Assumptions C119_notified_partial.
Example C119_example : no_setup rc_prog3 ∧ (∀ t, times 0 (sh_sinks rc_job t) = 1%nat) ∧
  ∃ s tr, executes rc_stream rc_job rc_prog3 s tr ∧ sends 0 5 tr = 2%nat ∧ overlapping 5 tr = 2%nat ∧ existsb (returned 5) tr = true.
Proof. split; [exact rc_alone|]. split; [done|exact rc_twice]. Qed.

(** ** C120: no data races between callers and sinks *)
(** one goroutine alone: it reports an error and then adds a key/value to the
    job, while the Bugsnag sink's goroutine goes through the same map *)
Theorem C120_keyvalue_after_report_refuted : ∃ sof same w cs s tr, fresh_queues w ∧
  (∀ c, c ∈ cs → match c with CAddSink _ _ | CKeyValue (OStream _) => False | _ => True end) ∧ executes sof w [cs] s tr ∧ race sof same s.
Proof. exact thm_race_refuted. Qed.
Print Assumptions C120_keyvalue_after_report_refuted.
(** a key/value of the stream is set while a job emits *)
Theorem C120_stream_keyvalue_refuted : ∃ sof same w s tr, fresh_queues w ∧
  executes sof w [[CKeyValue (OStream 0)]; [CEmit (Em 1 None None)]] s tr ∧ race sof same s.
Proof. exact thm_race_stream_refuted. Qed.
Print Assumptions C120_stream_keyvalue_refuted.
(** one goroutine, which only reports two errors with the same text and stack:
    it marks the second while the polling sink's goroutine compares them *)
Theorem C120_flag_refuted : ∃ sof same w s tr, fresh_queues w ∧ (∀ t, sh_sinks w t = [SkPoll 0]) ∧
  executes sof w [[CEmit (Em 0 None (Some 5%nat)); CEmit (Em 0 None (Some 8%nat))]] s tr ∧ race sof same s.
Proof. exact thm_race_flag_refuted. Qed.
Print Assumptions C120_flag_refuted.
(** two Bugsnag sinks resolve the frames of one error, all calls have returned *)
Theorem C120_frames_refuted : ∃ sof same w s tr, fresh_queues w ∧ (∀ t, sh_sinks w t = [SkBugsnag 0; SkBugsnag 1]) ∧
  executes sof w [[CEmit (Em 0 None (Some 5%nat))]] s tr ∧ Forall (λ pc : ph * list call, pc = (Idle, [])) (r_gs s) ∧ race sof same s.
Proof. exact thm_race_frames_refuted. Qed.
Print Assumptions C120_frames_refuted.
(** Bugsnag's goroutine resolves the frames of an error while the polling sink's
    compares it to another *)
Theorem C120_compared_refuted : ∃ sof same w s tr, fresh_queues w ∧ (∀ t, sh_sinks w t = [SkBugsnag 0; SkPoll 0]) ∧
  executes sof w [[CEmit (Em 0 None (Some 5%nat)); CEmit (Em 0 None (Some 8%nat))]] s tr ∧
  Forall (λ pc : ph * list call, pc = (Idle, [])) (r_gs s) ∧ race sof same s.
Proof. exact thm_race_compared_refuted. Qed.
Print Assumptions C120_compared_refuted.
(** otherwise there are none *)
Theorem C120_no_race_partial : ∀ sof same w progs, used_well sof same w progs → fresh_queues w → ∀ s tr, executes sof w progs s tr → ¬ race sof same s.
Proof. exact thm_no_race. Qed.
Print Assumptions C120_no_race_partial.
Example C120_example : used_well rc_stream rc_same rc_str rc_good ∧ fresh_queues rc_str ∧
  ∃ s tr, executes rc_stream rc_str rc_good s tr ∧ Forall (λ pc : ph * list call, pc = (Idle, [])) (r_gs s) ∧ sends 0 5 tr = 1%nat ∧ sends 0 6 tr = 1%nat ∧
    sh_framed (r_sh s) 5%nat = true ∧ r_seen s 0%nat = [5%nat] ∧ r_now s 0%nat = Some 6%nat.
Proof. split; [exact rc_used|]. split; [done|exact rc_good_runs]. Qed.
(** what the calls of a goroutine that runs alone read and write *)
Example C120_accesses :
  alone 30 (starts_with (rc_shared (λ o, bool_decide (o = OStream 0))) [[CKeyValue (OJob 3); CEmit (Em 3 (Some 7%nat) (Some 5%nat)); CInst 7]]) =
  [Rd (LField (OJob 3)); Wr (LField (OJob 3)); Rd (LField (OJob 3)); Wr (LMap (MOf (OJob 3)));
   Rd (LField (OJob 3)); Rd (LField (OJob 3)); Rd (LMap (MOf (OJob 3)));
   Rd (LField (OStream 0)); Rd (LField (OStream 0)); Rd (LMap (MOf (OStream 0)));
   Rd (LMap (MInst 7));
   Rd (LField (OStream 0)); Rd (LMap (MOf (OStream 0))); Rd (LField (OJob 3)); Rd (LMap (MOf (OJob 3)));
   Rd (LSinks 0); Rd (LMap MNew); Rd (LFlag 5); Wr (LFlag 5);
   Wr (LMap (MInst 7))] ∧
  alone 30 (starts_with rc_job [[CAddSink 0 SkSync; CEmit (Em 0 None None)]]) =
  [Rd (LSinks 0); Wr (LSinks 0); Rd (LField (OJob 0)); Rd (LField (OJob 0)); Rd (LMap (MOf (OJob 0))); Rd (LField (OStream 0));
   Rd (LSinks 0); Rd (LMap (MOf (OJob 0))); Rd (LMap (MOf (OJob 0)))].
Proof. split; by vm_compute. Qed.
