(** * Property theorems: streams, jobs and errors (C01-C08, C74)

    [reachable w]: the application reached [w] by some sequence of API calls.
    [w_log w] lists the calls received by sinks. *)
From Verif Require Import SHealth2 PHealth3 PHealth5 PHealthEx PNil PKept.

(** ** C01 *)
Theorem C01_every_sink_called_once_in_order : ∀ w a j inst jb st,
  reachable w → emission a = Some (j, inst) → w_jobs w !! j = Some jb → w_streams w !! jb_stream jb = Some st →
  ∃ w' cs, api_step w a = Ok w' ∧ w_log w' = w_log w ++ cs ∧ map c_sink cs = st_sinks st ∧
    Forall (λ c, c_job c = jb_name jb ∧ tells w w' jb a (c_what c)) cs.
Proof. exact thm_fan_out. Qed.
Print Assumptions C01_every_sink_called_once_in_order.

(** a stream's sinks are those attached to it, in order *)
Theorem C01_sinks_in_attachment_order : ∀ clock h w s st,
  api_run (world0 clock) h = Ok w → w_streams w !! s = Some st → st_sinks st = attached s h.
Proof. exact sinks_attached. Qed.
Print Assumptions C01_sinks_in_attachment_order.

(** other API calls reach no sink *)
Theorem C01_nothing_else_calls_sinks : ∀ w a w',
  emission a = None → api_step w a = Ok w' → w_log w' = w_log w.
Proof. exact silent_log. Qed.
Print Assumptions C01_nothing_else_calls_sinks.

Example C01_example : calls_of ex_world [ApiTiming 3 "t" 5; ApiComplete 1 1] =
  [(7%nat, "work", PTiming "t" 5, [("id", "12"); ("env", "dev")]);
   (8%nat, "work", PTiming "t" 5, [("id", "12"); ("env", "dev")]);
   (7%nat, "general", PComplete 1 200, [("env", "prod")]);
   (8%nat, "general", PComplete 1 300, [("env", "prod")])].
Proof. vm_compute. reflexivity. Qed.
Example C01_example_reachable : reachable ex_world ∧ attached 0 ex_setup = [7; 8]%nat.
Proof. split; [exact ex_reachable|reflexivity]. Qed.

(** ** C02 *)
Theorem C02_call_over_job_over_stream : ∀ w a j inst jb st w' cs,
  reachable w → emission a = Some (j, inst) → w_jobs w !! j = Some jb → w_streams w !! jb_stream jb = Some st →
  api_step w a = Ok w' → w_log w' = w_log w ++ cs →
  Forall (λ c, ∀ key, c_view c !! key = lookup_levels (kvs w (st_kvs st)) (kvs w (jb_kvs jb)) (kvs w inst) key) cs.
Proof. exact thm_precedence. Qed.
Print Assumptions C02_call_over_job_over_stream.

(** whatever order the three maps are enumerated in *)
Theorem C02_iteration_order_irrelevant : ∀ w st jb inst ls lj li,
  ls ≡ₚ map_to_list (kvs w (st_kvs st)) → lj ≡ₚ map_to_list (kvs w (jb_kvs jb)) → li ≡ₚ map_to_list (kvs w inst) →
  merged_key_values_ord w st jb inst ls lj li = merged_key_values w st jb inst.
Proof. exact PHealth.merged_order. Qed.
Print Assumptions C02_iteration_order_irrelevant.

(** and the levels are what the application set, last value first *)
Theorem C02_levels_as_set : ∀ clock hist w, api_run (world0 clock) hist = Ok w →
  (∀ s st key v, w_streams w !! s = Some st → kvs w (st_kvs st) !! key = Some v ↔ set_last (stream_sets s) hist key v) ∧
  (∀ j jb key v, w_jobs w !! j = Some jb → kvs w (jb_kvs jb) !! key = Some v ↔ set_last (job_sets j) hist key v).
Proof. exact thm_levels. Qed.
Print Assumptions C02_levels_as_set.

Example C02_example : calls_of ex_world [ApiEventKv 3 "e" (Some 5%nat)] =
  [(7%nat, "work", PEvent "e", [("id", "13"); ("env", "dev")]); (8%nat, "work", PEvent "e", [("id", "13"); ("env", "dev")])].
Proof. vm_compute. reflexivity. Qed.

Example C02_example_levels :
  set_last (job_sets 3) (ex_setup ++ [ApiJobKv 3 "env" "test"; ApiStreamKv 0 "env" "x"]) "env" "test" ∧ kvs ex_world (Some 4%nat) !! "env" = Some "dev".
Proof.
  split; [|vm_compute; reflexivity]. exists ex_setup, (ApiJobKv 3 "env" "test"), [ApiStreamKv 0 "env" "x"].
  split; [done|]. split; [done|]. by constructor.
Qed.

(** ** C03 *)
Theorem C03_emitting_edits_no_map : ∀ w a j inst w',
  reachable w → emission a = Some (j, inst) → api_step w a = Ok w' →
  (∀ l m, w_maps w !! l = Some m → w_maps w' !! l = Some m) ∧ w_streams w' = w_streams w ∧ w_jobs w' = w_jobs w.
Proof. exact thm_no_edit. Qed.
Print Assumptions C03_emitting_edits_no_map.

Example C03_example :
  (w' ←r api_step ex_world (ApiEventKv 3 "e" (Some 5%nat)); Ok (kvs w' (Some 5%nat) !! "id", w_next w')) =
  Ok (Some "13", S (w_next ex_world)).
Proof. vm_compute. reflexivity. Qed.

(** ** C04 *)

(** The code hands out the stream's own map when no other level has key/values:
    a sink that kept it sees later changes. *)
Theorem C04_kept_map_changes_refuted :
  ∃ w c w', reachable w ∧ w_log w = [c] ∧ api_step w (ApiStreamKv 0 "env" "test") = Ok w' ∧
    c_view c !! "env" = Some "prod" ∧ kvs w' (c_kvs c) !! "env" = Some "test".
Proof. exact thm_alias. Qed.
Print Assumptions C04_kept_map_changes_refuted.

(** It holds unless exactly one level has key/values. *)
Theorem C04_kept_map_stable_partial : ∀ w a j inst jb st w1 cs h w2,
  reachable w → emission a = Some (j, inst) → w_jobs w !! j = Some jb → w_streams w !! jb_stream jb = Some st →
  levels w st jb inst ≠ 1%nat → api_step w a = Ok w1 → w_log w1 = w_log w ++ cs →
  api_run w1 h = Ok w2 → Forall (λ c, kvs w2 (c_kvs c) = c_view c) cs.
Proof. exact thm_kept. Qed.
Print Assumptions C04_kept_map_stable_partial.

(** And exactly then, if the call's own map is one of the application's: with one
    level some later call changes what the sinks were given. *)
Theorem C04_exactly_partial : ∀ w a j inst jb st w1 cs,
  reachable w → emission a = Some (j, inst) → w_jobs w !! j = Some jb → w_streams w !! jb_stream jb = Some st →
  (∀ l, inst = Some l → l ∈ w_mine w) → api_step w a = Ok w1 → w_log w1 = w_log w ++ cs → cs ≠ [] →
  ((∀ h w2, api_run w1 h = Ok w2 → Forall (λ c, kvs w2 (c_kvs c) = c_view c) cs) ↔ levels w st jb inst ≠ 1%nat).
Proof. exact thm_kept_exactly. Qed.
Print Assumptions C04_exactly_partial.

Example C04_example : ∃ jb st, w_jobs ex_world !! 3%nat = Some jb ∧ w_streams ex_world !! jb_stream jb = Some st ∧
  levels ex_world st jb (Some 5%nat) = 3%nat.
Proof. eexists _, _. split; [vm_compute; reflexivity|]. split; vm_compute; reflexivity. Qed.

(** ** C05 *)
Theorem C05_wrap_once_keep_text_mark : ∀ w lv e w1 e1,
  reachable w → valid w e → report w lv e = Ok (w1, e1) →
  reported w w1 e e1 ∧ (∀ s, text_of w e s → text_of w1 e1 s) ∧
  (∀ l, e1 = EUnmuted l → ∃ x st, w_errs w1 !! l = Some (OUnmuted x st true)).
Proof. exact thm_wrap. Qed.
Print Assumptions C05_wrap_once_keep_text_mark.

(** The flag each sink sees is part of C01 ([was_emitted] in [tells]). *)
Example C05_example :
  match report ex_world (LErr 3 "oops" [1%N; 2%N]) (EUser 4 "no luck") with
  | Ok (w1, e1) =>
      match report w1 (LErr 1 "again" []) e1 with
      | Ok (w2, e2) => e1 = EUnmuted 6 ∧ e2 = e1 ∧ w_errs w2 !! 6%nat = Some (OUnmuted (EUser 4 "no luck") [1%N; 2%N] true) ∧
          map c_what (w_log w2) = [PEventErr "oops" e1 false; PEventErr "oops" e1 false; PEventErr "again" e1 true; PEventErr "again" e1 true]
      | _ => False
      end
  | _ => False
  end.
Proof. vm_compute. auto. Qed.

(** ** C06 *)
Theorem C06_one_notification_per_error : ∀ w lv e w1 e1 jb st b ls w' e',
  reachable w → is_wrapped e = false → w_jobs w !! level_job lv = Some jb → w_streams w !! jb_stream jb = Some st →
  count_occ Nat.eq_dec (st_sinks st) b = 1%nat → report w lv e = Ok (w1, e1) → chain no_report w1 e1 ls w' e' →
  e' = e1 ∧ ∃ l new kv, e1 = EUnmuted l ∧ w_log w' = w_log w ++ new ∧
    bugsnag_queue b new = [BCmd (jb_name jb) (level_event lv) l kv].
Proof. exact thm_one_notification. Qed.
Print Assumptions C06_one_notification_per_error.

(** also when other errors are reported in between *)
Theorem C06_one_notification_interleaved : ∀ w lv e w1 e1 jb st b ls w' e',
  reachable w → is_wrapped e = false → w_jobs w !! level_job lv = Some jb → w_streams w !! jb_stream jb = Some st →
  count_occ Nat.eq_dec (st_sinks st) b = 1%nat → report w lv e = Ok (w1, e1) → chain anything w1 e1 ls w' e' →
  e' = e1 ∧ ∃ l new kv, e1 = EUnmuted l ∧ w_log w' = w_log w ++ new ∧
    notified b l new = [BCmd (jb_name jb) (level_event lv) l kv].
Proof. exact thm_one_notification_interleaved. Qed.
Print Assumptions C06_one_notification_interleaved.

Theorem C06_muted_never_notified : ∀ w l ls w' e' b,
  reachable w → chain no_report w (EMuted l) ls w' e' →
  e' = EMuted l ∧ ∃ new, w_log w' = w_log w ++ new ∧ bugsnag_queue b new = [].
Proof. exact thm_muted. Qed.
Print Assumptions C06_muted_never_notified.

Example C06_example :
  match report ex_world (LErr 3 "oops" []) (EUser 4 "no luck") with
  | Ok (w1, e1) =>
      match report w1 (LErrKv 1 "again" (Some 5%nat) []) e1 with
      | Ok (w2, e2) => match report w2 (LErr 1 "and again" []) e2 with
          | Ok (w3, _) => map (λ c, (b_job c, b_event c)) (bugsnag_queue 7 (w_log w3)) = [("work", "oops")]
          | _ => False end
      | _ => False
      end
  | _ => False
  end.
Proof. vm_compute. reflexivity. Qed.

(** ** C07 *)

(** A function that calls runtime.Goexit, or panics with nil before Go 1.21,
    leaves no completion at all. *)
Theorem C07_completion_lost_refuted :
  reachable ex_world ∧ st_sinks <$> w_streams ex_world !! 0%nat = Some [7; 8]%nat ∧
  (∃ w', job_run ex_world 3 (λ w, (w, OPanicNil)) 0 "" [] = Ok (w', Returned ENil) ∧ w_log w' = w_log ex_world) ∧
  (∃ w', job_run ex_world 3 (λ w, (w, OGoexit)) 0 "" [] = Ok (w', GoroutineEnded) ∧ w_log w' = w_log ex_world).
Proof. exact thm_run_lost. Qed.
Print Assumptions C07_completion_lost_refuted.

(** Functions that return (0 = Success, 3 = Error) *)
Theorem C07_run_completes_partial : ∀ w j f eid stxt stk w1 e jb st,
  f w = (w1, ORet e) → w_jobs w1 !! j = Some jb → w_streams w1 !! jb_stream jb = Some st →
  ∃ w' cs, job_run w j f eid stxt stk = Ok (w', Returned e) ∧ w_log w' = w_log w1 ++ cs ∧
    calls_to (st_sinks st) (jb_name jb) (completion w1 (jb_start jb) (if decide (e = ENil) then 0 else 3)) cs.
Proof. exact thm_run_returns. Qed.
Print Assumptions C07_run_completes_partial.

(** Functions that panic with a value (2 = Panic) *)
Theorem C07_run_reports_panic_partial : ∀ w j f eid stxt stk w1 text jb st,
  f w = (w1, OPanic text) → w_jobs w1 !! j = Some jb → w_streams w1 !! jb_stream jb = Some st →
  ∃ w' cs1 cs2 id, job_run w j f eid stxt stk = Ok (w', Returned (EUser id text)) ∧ w_log w' = w_log w1 ++ cs1 ++ cs2 ∧
    calls_to (st_sinks st) (jb_name jb) (panic_event w' text stxt) cs1 ∧
    calls_to (st_sinks st) (jb_name jb) (completion w1 (jb_start jb) 2) cs2.
Proof. exact thm_run_panics. Qed.
Print Assumptions C07_run_reports_panic_partial.

(** Stream.Run with a function that makes any API calls *)
Theorem C07_stream_run_partial : ∀ w s name f eid stxt stk hist w1 o st0,
  reachable w → w_streams w !! s = Some st0 → f (new_job w s name).1 = (w1, o) →
  api_run (new_job w s name).1 hist = Ok w1 →
  ∃ st, w_streams w1 !! s = Some st ∧
  match o with
  | ORet e => ∃ w' cs, stream_run w s name f eid stxt stk = Ok (w', Returned e) ∧ w_log w' = w_log w1 ++ cs ∧
      calls_to (st_sinks st) name (completion w1 (w_clock w (w_ticks w)) (if decide (e = ENil) then 0 else 3)) cs
  | OPanic text => ∃ w' cs1 cs2 id, stream_run w s name f eid stxt stk = Ok (w', Returned (EUser id text)) ∧
      w_log w' = w_log w1 ++ cs1 ++ cs2 ∧
      calls_to (st_sinks st) name (panic_event w' text stxt) cs1 ∧
      calls_to (st_sinks st) name (completion w1 (w_clock w (w_ticks w)) 2) cs2
  | _ => True
  end.
Proof. exact thm_stream_run. Qed.
Print Assumptions C07_stream_run_partial.

Example C07_example :
  match stream_run ex_world 0 "job" (λ w, (match job_event w 3 "inside" with Ok w' => w' | _ => w end, OPanic "boom")) 9 "trace" [] with
  | Ok (w', Returned e) => e = EUser 9 "boom" ∧
      map (λ c, (c_sink c, c_job c, c_what c)) (drop 2 (w_log w')) =
      [(7%nat, "job", PEventErr "panic" (EUnmuted 9) false); (8%nat, "job", PEventErr "panic" (EUnmuted 9) false);
       (7%nat, "job", PComplete 2 100); (8%nat, "job", PComplete 2 200)]
  | _ => False
  end.
Proof. vm_compute. auto. Qed.

(** ** C08 *)

(** Re-reporting what Run returned always notifies a second time. *)
Theorem C08_panic_notified_twice_refuted : ∀ w f eid stxt stk w1 text lv jb st b w2 e2 w3 e3,
  reachable w1 → f w = (w1, OPanic text) → w_jobs w1 !! level_job lv = Some jb → w_streams w1 !! jb_stream jb = Some st →
  count_occ Nat.eq_dec (st_sinks st) b = 1%nat →
  job_run w (level_job lv) f eid stxt stk = Ok (w2, Returned e2) → report w2 lv e2 = Ok (w3, e3) →
  ∃ new l1 l2 kv1 kv2, w_log w3 = w_log w1 ++ new ∧ bugsnag_queue b new =
     [BCmd (jb_name jb) "panic" l1 kv1; BCmd (jb_name jb) (level_event lv) l2 kv2].
Proof. exact thm_panic_notified_twice. Qed.
Print Assumptions C08_panic_notified_twice_refuted.

Example C08_example :
  match job_run ex_world 3 (λ w, (w, OPanic "boom")) 9 "trace" [] with
  | Ok (w2, Returned e) =>
      match report w2 (LErr 3 "failed" []) e with
      | Ok (w3, _) => map (λ c, (b_job c, b_event c)) (bugsnag_queue 7 (w_log w3)) = [("work", "panic"); ("work", "failed")]
      | _ => False end
  | _ => False
  end.
Proof. vm_compute. reflexivity. Qed.

(** Run itself notifies once. *)
Theorem C08_run_notifies_once_partial : ∀ w f j eid stxt stk w1 text jb st b,
  f w = (w1, OPanic text) → w_jobs w1 !! j = Some jb → w_streams w1 !! jb_stream jb = Some st →
  count_occ Nat.eq_dec (st_sinks st) b = 1%nat →
  ∃ w' r new l kv, job_run w j f eid stxt stk = Ok (w', r) ∧ w_log w' = w_log w1 ++ new ∧
     bugsnag_queue b new = [BCmd (jb_name jb) "panic" l kv].
Proof. exact thm_panic_notified. Qed.
Print Assumptions C08_run_notifies_once_partial.

(** ** C74 *)

(** Reporting nil returns a non-nil error whose message cannot be read. *)
Theorem C74_nil_report_unreadable_refuted : ∀ w lv w1 e1,
  reachable w → report w lv ENil = Ok (w1, e1) → e1 ≠ ENil ∧ ∀ s, ¬ text_of w1 e1 s.
Proof. exact thm_nil_report. Qed.
Print Assumptions C74_nil_report_unreadable_refuted.
(** ... and stays so, whoever reports it again and whatever else happens: a
    WriterSink panics in the caller, a Bugsnag sink in its own goroutine *)
Theorem C74_nil_stays_unreadable_refuted : ∀ w lv w1 e1 ls w' e',
  reachable w → report w lv ENil = Ok (w1, e1) → chain anything w1 e1 ls w' e' → e' ≠ ENil ∧ ∀ s, ¬ text_of w' e' s.
Proof. exact thm_nil_stays. Qed.
Print Assumptions C74_nil_stays_unreadable_refuted.
(** an error that has a message keeps it through any number of reports *)
Theorem C74_messages_stay_partial : ∀ w id t ls w' e',
  reachable w → chain anything w (EUser id t) ls w' e' → text_of w' e' t.
Proof. exact thm_text_stays. Qed.
Print Assumptions C74_messages_stay_partial.

Example C74_example : ∃ w1, report ex_world (LErr 3 "e" []) ENil = Ok (w1, EUnmuted 6).
Proof. eexists. vm_compute. reflexivity. Qed.
Example C74_chain_example : ∃ w', chain anything ex_world (EUser 4 "no luck") [LErr 3 "oops" [1%N; 2%N]; LErr 1 "again" []] w' (EUnmuted 6).
Proof. exact nil_ex_chain. Qed.
