(** * Property theorems: stack traces and the Bugsnag sink (C51, C67, C68,
      C75-C77) *)
From Verif Require Import SStack PStack PHealthEx PWriter2.

(** ** C51 *)
Theorem C51_payload_faithful : ∀ cfg job event msg frames kvs,
  let p := new_payload cfg job event msg frames kvs in
  bp_apikey p = bc_apikey cfg ∧
  ∃ ev ex, bp_events p = [ev] ∧ bv_excs ev = [ex] ∧ bv_context ev = job ∧
    bv_stage ev = bc_stage cfg ∧ bv_host ev = bc_host cfg ∧ bv_kvs ev = kvs ∧
    be_class ex = event ∧ be_message ex = msg ∧
    length (be_stack ex) = length frames ∧
    (∀ i f, frames !! i = Some f → ∃ bf, be_stack ex !! i = Some bf ∧ bf_file bf = f_file f ∧
       bf_line bf = f_line f ∧ bf_method bf = f_pkg f +:+ ":" +:+ f_name f ∧ (bf_inproject bf = true ↔ f_system f = false)) ∧
    (∀ u, kvs !! "request" = Some u → bv_url ev = u) ∧ (kvs !! "request" = None → bv_url ev = "") ∧
    (∀ u, kvs !! "formdata" = Some u → bv_params ev = u) ∧ (kvs !! "formdata" = None → bv_params ev = "").
Proof. exact payload_faithful. Qed.
Print Assumptions C51_payload_faithful.

Example C51_example :
  be_stack <$> (head (bp_events (new_payload (BConfig "k" "" "" "" "") "j" "e" "m"
     [Frame "a.go" 3 "F" "p" false 1; Frame "b.go" 4 "G" "q" true 2] {["request" := "u"]})) ≫= (λ ev, head (bv_excs ev)))
  = Some [BFrame "a.go" 3 "p:F" true; BFrame "b.go" 4 "q:G" false].
Proof. vm_compute. reflexivity. Qed.

(** ** C67 *)
Theorem C67_split_at_first_period_after_last_slash : ∀ path pkg name,
  is_path path → ¬ occurs "/" pkg → ¬ occurs "." pkg → ¬ occurs "/" name →
  package_and_name (path +:+ pkg +:+ "." +:+ name) = (path +:+ pkg, name).
Proof. exact split_name. Qed.
Print Assumptions C67_split_at_first_period_after_last_slash.

(** every byte string: nothing is lost *)
Theorem C67_split_lossless : ∀ s,
  let '(pkg, name) := package_and_name s in
  ¬ occurs "/" name ∧
  ((∃ path base, s = path +:+ base ∧ is_path path ∧ ¬ occurs "/" base ∧ ¬ occurs "." base ∧ pkg = path ∧ name = base) ∨
   s = pkg +:+ "." +:+ name).
Proof. exact split_lossless. Qed.
Print Assumptions C67_split_lossless.

Example C67_example : package_and_name "github.com/gocraft/health.(*Job).Run.func1" =
  ("github.com/gocraft/health", "(*Job).Run.func1") ∧ package_and_name "main" = ("", "main").
Proof. vm_compute. auto. Qed.

(** ** C68 *)

(** runtime.Callers sees itself, NewTrace, wrapErr and EventErr first *)
Theorem C68_trace_starts_at_reporter : ∀ cf nt we ee caller rest,
  t_stack (new_trace 2 (cf :: nt :: we :: ee :: caller :: rest)) = take 50 (caller :: rest).
Proof. exact thm_trace_start. Qed.
Print Assumptions C68_trace_starts_at_reporter.

Theorem C68_frames_bounded_and_stable : ∀ rt skip callers fs t',
  trace_frames rt (new_trace skip callers) = (t', fs) →
  (length fs ≤ 50)%nat ∧ length fs = length (t_stack (new_trace skip callers)) ∧ trace_frames rt t' = (t', fs) ∧
  ∀ i f, fs !! i = Some f → t_stack (new_trace skip callers) !! i = Some (f_pc f).
Proof. exact thm_trace_frames. Qed.
Print Assumptions C68_frames_bounded_and_stable.

Example C68_example :
  let rt := Runtime (λ pc, if (pc =? 9)%N then Some "a/b.F" else None) (λ pc, ("/x/b.go", Z.of_N pc)) "/go" in
  (trace_frames rt (new_trace 0 [1; 2; 9; 0; 8]%N)).2 =
  [Frame "/x/b.go" 8 "F" "a/b" false 9; Frame "" 0 "" "" false 0; Frame "" 0 "" "" false 8].
Proof. vm_compute. reflexivity. Qed.

(** ** C75 *)
Theorem C75_shutdown_drops_queue_refuted :
  ∃ c s, bsteps bq0 [BEnqueue c; BShutdown] s ∧ ∀ tr s', bsteps s tr s' → c ∉ q_sent s'.
Proof. exact thm_shutdown_drops. Qed.
Print Assumptions C75_shutdown_drops_queue_refuted.

(** once shut down, at most 25 more reports return *)
Theorem C75_reports_block_after_shutdown_refuted : ∀ s tr s',
  q_done s = true → (length (q_chan s) ≤ 25)%nat → bsteps s tr s' → (length tr ≤ 25)%nat.
Proof. exact thm_stopped_blocks. Qed.
Print Assumptions C75_reports_block_after_shutdown_refuted.

(** what is sent is what was accepted, once and in order; the rest is queued *)
Theorem C75_sent_once_in_order_partial : ∀ tr s,
  bsteps bq0 tr s → q_sent s ++ q_chan s = enqueued tr.
Proof. exact thm_sent_in_order. Qed.
Print Assumptions C75_sent_once_in_order_partial.

(** until shutdown the loop can always send the rest by itself *)
Theorem C75_queue_can_be_sent_partial : ∀ tr s,
  bsteps bq0 tr s → q_done s = false →
  ∃ tr' s', bsteps s tr' s' ∧ enqueued tr' = [] ∧ q_sent s' = enqueued tr.
Proof. exact thm_can_send. Qed.
Print Assumptions C75_queue_can_be_sent_partial.

Example C75_example : ∃ s, bsteps bq0 [BEnqueue (BCmd "a" "x" 1 None); BEnqueue (BCmd "b" "y" 2 None); BNotify] s ∧
  q_sent s = [BCmd "a" "x" 1 None] ∧ q_chan s = [BCmd "b" "y" 2 None].
Proof.
  eexists. split.
  - econstructor; [constructor; cbn; unfold bugsnag_chan_size; lia|]. econstructor; [constructor; cbn; unfold bugsnag_chan_size; lia|].
    econstructor; [constructor|constructor].
  - done.
Qed.

(** ** C76 *)

(** the configured version never reaches the payload *)
Theorem C76_app_version_ignored_refuted : ∀ cfg v job event msg frames kvs,
  new_payload (BConfig (bc_apikey cfg) (bc_endpoint cfg) (bc_stage cfg) v (bc_host cfg)) job event msg frames kvs =
  new_payload cfg job event msg frames kvs.
Proof. exact thm_version_ignored. Qed.
Print Assumptions C76_app_version_ignored_refuted.

(** the release stage does not default to production *)
Theorem C76_no_stage_default_refuted :
  bv_stage <$> head (bp_events (new_payload (new_sink_config (BConfig "key" "" "" "" "")) "j" "e" "m" [] ∅)) = Some "".
Proof. exact thm_no_stage_default. Qed.
Print Assumptions C76_no_stage_default_refuted.

(** only the endpoint has its documented default *)
Theorem C76_endpoint_default_partial : ∀ cfg,
  bc_endpoint (new_sink_config cfg) ≠ "" ∧
  (bc_endpoint cfg ≠ "" → new_sink_config cfg = cfg) ∧
  (bc_endpoint cfg = "" → bc_endpoint (new_sink_config cfg) = "https://notify.bugsnag.com/").
Proof. exact thm_endpoint. Qed.
Print Assumptions C76_endpoint_default_partial.

(** ** C77 *)

(** application code in a directory next to GOROOT counts as system code *)
Theorem C77_sibling_directory_refuted :
  ∃ rt file, is_system_package rt file = true ∧ ¬ inside (rt_goroot rt) file ∧ rt_goroot rt ≠ "".
Proof. exact thm_sibling. Qed.
Print Assumptions C77_sibling_directory_refuted.

Theorem C77_goroot_files_partial : ∀ rt file,
  (inside (rt_goroot rt) file → is_system_package rt file = true) ∧
  (is_system_package rt file = true → ∃ rest, file = rt_goroot rt +:+ rest).
Proof. exact thm_system. Qed.
Print Assumptions C77_goroot_files_partial.

(** the files marked although they are not inside GOROOT are exactly those whose
    name goes on after GOROOT's without a slash *)
Theorem C77_exactly_partial : ∀ rt file,
  (is_system_package rt file = true ∧ ¬ inside (rt_goroot rt) file) ↔
  (file = rt_goroot rt ∨ ∃ c rest, file = rt_goroot rt +:+ String c rest ∧ c ≠ "/"%char).
Proof. exact thm_system_exactly. Qed.
Print Assumptions C77_exactly_partial.

Example C77_example : inside "/go" "/go/src/x.go" ∧
  is_system_package (Runtime (λ _, None) (λ _, ("", 0)) "/go") "/app/x.go" = false.
Proof. split; [by exists "src/x.go"|reflexivity]. Qed.
