(** * Theorems: streams whose sinks write logs (C133-C135) *)
From Verif Require Import SLog PLog PLog2 PLog3 PLogEx.

(** ** C133 *)

(** a call that does not panic changes streams, jobs, errors and calls as the
    API does, and each attached sink, in order, writes what it should: a
    WriterSink one line, a JsonWriterSink one object *)
Theorem C133_every_emission_logged : ∀ env s a j inst jb st s',
  l_reach env s → env_ok env → api_can (ls_w s) a → int_times a →
  SHealth.emission a = Some (j, inst) → w_jobs (ls_w s) !! j = Some jb → w_streams (ls_w s) !! jb_stream jb = Some st →
  l_step env s a = Ok (s', false) →
  api_step (ls_w s) a = Ok (ls_w s') ∧
  ∃ bs, length bs = length (st_sinks st) ∧ ls_out s' = ls_out s ++ writes_of (st_sinks st) bs ∧
    ∀ i k, st_sinks st !! i = Some k → ∃ b, bs !! i = Some b ∧
      logs env (ls_w s) (ls_w s') st jb a inst (length (w_log (ls_w s)) + i) k b.
Proof. exact logged. Qed.
Print Assumptions C133_every_emission_logged.

(** other calls write nothing *)
Theorem C133_nothing_otherwise : ∀ env s a s' b,
  SHealth.emission a = None → l_step env s a = Ok (s', b) → b = false ∧ ls_out s' = ls_out s.
Proof. exact other_no_panic. Qed.
Print Assumptions C133_nothing_otherwise.

(** over whole executions, panics recovered: the Writes are those of the calls
    the sinks were told about, in order, one for each call of a WriterSink *)
Theorem C133_logs_are_the_calls : ∀ env s, l_reach env s →
  ∃ bs, length bs = length (w_log (ls_w s)) ∧ ls_out s = writes_of (map c_sink (w_log (ls_w s))) bs ∧
    ∀ i c, w_log (ls_w s) !! i = Some c →
      ∃ o, bs !! i = Some o ∧ (is_writer env (c_sink c) → o ≠ None) ∧ (le_kind env (c_sink c) = SkQuiet → o = None).
Proof. exact reach_fits. Qed.
Print Assumptions C133_logs_are_the_calls.

Example C133_example : l_reach x_env x_s ∧ env_ok x_env ∧ st_sinks x_st = [4; 2; 1; 5; 3]%nat ∧
  w_jobs (ls_w x_s) !! x_job = Some x_jb ∧ w_streams (ls_w x_s) !! jb_stream x_jb = Some x_st ∧
  x_writes [ApiTimingKv x_job "t" 2500000 None; ApiEventErr x_job "e" (EUser 9 "boom") []] = Some
    ([(2, "{""Job"":""work"",""Event"":""t"",""Timestamp"":""T"",""Nanoseconds"":2500000,""Kvs"":{""env"":""prod""}}");
      (1, "[T]: job:work event:t time:2 ms kvs:[env:prod]" +:+ nl); (3, "[T]: job:work event:t time:2 ms kvs:[env:prod]" +:+ nl);
      (2, "{""Job"":""work"",""Event"":""e"",""Timestamp"":""T"",""Err"":""boom"",""Kvs"":{""env"":""prod""}}");
      (1, "[T]: job:work event:e err:boom kvs:[env:prod]" +:+ nl); (3, "[T]: job:work event:e err:boom kvs:[env:prod]" +:+ nl)]%nat,
     [false; false]).
Proof. split; [exact x_reach|]. split; [exact x_env_ok|].
  split; [vm_compute; reflexivity|]. split; [vm_compute; reflexivity|]. split; vm_compute; reflexivity. Qed.

(** ** C134 *)
Theorem C134_no_panic_refuted : ∃ env s a s',
  env_ok env ∧ l_reach env s ∧ api_can (ls_w s) a ∧ l_step env s a = Ok (s', true).
Proof. exact cx_nil. Qed.
Print Assumptions C134_no_panic_refuted.

(** exactly: a report of an error whose message cannot be read, to a stream with
    a WriterSink *)
Theorem C134_panics_exactly_partial : ∀ env s a j inst jb st,
  l_reach env s → api_can (ls_w s) a →
  SHealth.emission a = Some (j, inst) → w_jobs (ls_w s) !! j = Some jb → w_streams (ls_w s) !! jb_stream jb = Some st →
  ∃ s' b, l_step env s a = Ok (s', b) ∧
    (b = true ↔ ∃ e, err_of a = Some e ∧ ¬ has_text (ls_w s) e ∧ ∃ k, k ∈ st_sinks st ∧ is_writer env k).
Proof. exact panics_exactly. Qed.
Print Assumptions C134_panics_exactly_partial.

(** an application that never hands over nil never panics *)
Theorem C134_without_nil_partial : ∀ env clock tr s, l_run env (LS (world0 clock) []) tr s →
  Forall (λ ab : api * bool, handed ab.1 ≠ Some ENil) tr → Forall (λ ab : api * bool, ab.2 = false) tr.
Proof. exact without_nil. Qed.
Print Assumptions C134_without_nil_partial.

(** the errors of the first five calls go well; Mute(nil) and EventErr(nil) are
    reported to a stream with WriterSinks; the stream goes on afterwards *)
Example C134_example :
  snd <$> x_writes [ApiEvent x_job "a"; ApiMute (EUser 8 "quiet"); ApiEventErr x_job "e" (EMuted 4) []; ApiEventErr x_job "e" (EUser 9 "boom") [];
    ApiEventErr x_job "e" (EUnmuted 5) []; ApiMute ENil; ApiEventErr x_job "e" (EMuted 6) []; ApiEventErrKv x_job "n" ENil None []; ApiComplete x_job 1] =
  Some [false; false; false; false; false; false; true; true; false].
Proof. vm_compute. reflexivity. Qed.

(** ** C135 *)

(** a sink attached behind a WriterSink is not told *)
Theorem C135_others_told_refuted : ∃ env s a j inst jb st s' k,
  env_ok env ∧ l_reach env s ∧ api_can (ls_w s) a ∧
  SHealth.emission a = Some (j, inst) ∧ w_jobs (ls_w s) !! j = Some jb ∧ w_streams (ls_w s) !! jb_stream jb = Some st ∧
  k ∈ st_sinks st ∧ le_kind env k = SkQuiet ∧ l_step env s a = Ok (s', true) ∧
  w_log (ls_w s) = [] ∧ Forall (λ c, c_sink c ≠ k) (w_log (ls_w s')).
Proof. exact cx_untold. Qed.
Print Assumptions C135_others_told_refuted.

(** the sinks attached before the first WriterSink, and no others, are told and
    write what they should; no error is marked as emitted *)
Theorem C135_who_is_told_partial : ∀ env s a j inst jb st s',
  l_reach env s → env_ok env → api_can (ls_w s) a →
  SHealth.emission a = Some (j, inst) → w_jobs (ls_w s) !! j = Some jb → w_streams (ls_w s) !! jb_stream jb = Some st →
  l_step env s a = Ok (s', true) →
  (∀ l o, w_errs (ls_w s) !! l = Some o → w_errs (ls_w s') !! l = Some o) ∧
  ∃ cs bs, w_log (ls_w s') = w_log (ls_w s) ++ cs ∧ map c_sink cs = before_writer env (st_sinks st) ∧
    length bs = length (before_writer env (st_sinks st)) ∧
    ls_out s' = ls_out s ++ writes_of (before_writer env (st_sinks st)) bs ∧
    ∀ i k, before_writer env (st_sinks st) !! i = Some k → ∃ b, bs !! i = Some b ∧
      logs env (ls_w s) (ls_w s') st jb a inst (length (w_log (ls_w s)) + i) k b.
Proof. exact fails. Qed.
Print Assumptions C135_who_is_told_partial.

(** inside Run the panic, like any other, is itself reported: every sink is told
    of an error event named panic and of the completion, and Run returns *)
Theorem C135_run_reports_panics_partial : ∀ env s f s1 j jb st eid text stx stack,
  l_reach env s1 → env_ok env → f s = (s1, OPanic text) →
  w_jobs (ls_w s1) !! j = Some jb → w_streams (ls_w s1) !! jb_stream jb = Some st →
  ∃ w1 w2 s3 bs bs', (w1, w_next (ls_w s1)) = new_map (ls_w s1) {[ "stack" := stx ]} ∧
    l_job_run env s j f eid stx stack = Ok (s3, Some (Returned (EUser eid text))) ∧
    length bs = length (st_sinks st) ∧ length bs' = length (st_sinks st) ∧
    ls_out s3 = ls_out s1 ++ writes_of (st_sinks st) bs ++ writes_of (st_sinks st) bs' ∧
    ∀ i k, st_sinks st !! i = Some k → ∃ b b', bs !! i = Some b ∧ bs' !! i = Some b' ∧
      logs env w1 w2 st jb (ApiEventErrKv j "panic" (EUser eid text) (Some (w_next (ls_w s1))) stack) (Some (w_next (ls_w s1)))
        (length (w_log (ls_w s1)) + i) k b ∧
      logs env w2 (ls_w s3) st jb (ApiComplete j Panic) None (length (w_log w2) + i) k b'.
Proof. exact in_run. Qed.
Print Assumptions C135_run_reports_panics_partial.

(** Sinks 4, 2, 1, 5, 3 of which 1 and 3 are WriterSinks: for nil only 2 writes.
    In Run, all are then told of the panic. *)
Example C135_example : before_writer x_env (st_sinks x_st) = [4; 2]%nat ∧
  (let o := Ok ([(2, "{""Job"":""work"",""Event"":""n"",""Timestamp"":""T"",""Err"":""%!v(PANIC=Error method)"",""Kvs"":{""env"":""prod""}}")]%nat) in
   (r ←r l_step x_env x_s (ApiEventErr x_job "n" ENil []); Ok (ls_out r.1)) = o) ∧
  (r ←r l_job_run x_env x_s x_job x_f 77 "S" []; Ok (drop 1 (ls_out r.1), r.2)) =
  Ok ([(2, "{""Job"":""work"",""Event"":""panic"",""Timestamp"":""T"",""Err"":""runtime error"",""Kvs"":{""env"":""prod"",""stack"":""S""}}");
       (1, "[T]: job:work event:panic err:runtime error kvs:[env:prod stack:S]" +:+ nl);
       (3, "[T]: job:work event:panic err:runtime error kvs:[env:prod stack:S]" +:+ nl);
       (2, "{""Job"":""work"",""Status"":""panic"",""Timestamp"":""T"",""Nanoseconds"":200,""Kvs"":{""env"":""prod""}}");
       (1, "[T]: job:work status:panic time:300 ns kvs:[env:prod]" +:+ nl);
       (3, "[T]: job:work status:panic time:500 ns kvs:[env:prod]" +:+ nl)]%nat, Some (Returned (EUser 77 "runtime error"))).
Proof. split; [|split]; vm_compute; reflexivity. Qed.
