(** * Property theorems: the documents the Librato and Bugsnag sinks send (C95, C96, C76)

    That a summary of float64s consists of float64s is a matter of real
    numbers in Flocq, hence the axioms below for [C95_document]. *)
From Verif Require Import SSend SFloat3 PNum2 PWire PWire2 PWireEx PLibrato PSend PSend2.

(** ** C95 *)
(** After any run of the sink with commands since the last flush, whose
    summaries are finite, the flush posts one body: the JSON document with one
    entry for each name touched, counting its events or summarising its
    measurements *)
Theorem C95_document : ∀ ff c tr now, let cmds := since_flush [] tr in
  float_codec ff → utf8_names c → in_int64 now → in_int64 (c_period c) → cmds ≠ [] → Forall (λ x, measurable x.2) cmds → summable c cmds →
  ∃ v body, lib_send_text ff c (lib_run c lib0 tr) now = [body] ∧ json_text v body ∧ post_json c cmds now v.
Proof. exact thm_librato_body. Qed.
Print Assumptions C95_document.

(** durations that are int64s and gauges of at most 10^100 have finite summaries *)
Theorem C95_ordinary_sizes : ∀ c cmds, Forall (λ x, modest x.2) cmds → Forall (λ x, measurable x.2) cmds ∧ summable c cmds.
Proof. exact thm_modest_summable. Qed.
Print Assumptions C95_ordinary_sizes.

(** the bodies are those of the requests C48 and C49 speak of *)
Theorem C95_same_requests : ∀ ff c tr now ok, let s := lib_run c lib0 tr in
  Forall2 (λ p body, post_body ff p.1 = Some body) (lib_send c s now ok) (lib_send_text ff c s now).
Proof. exact thm_same_requests. Qed.
Print Assumptions C95_same_requests.

(** names made by the default sanitiser are UTF-8 *)
Theorem C95_default_names : ∀ k, valid_utf8 (sanitize_key k).
Proof. exact thm_sanitize_valid. Qed.
Print Assumptions C95_default_names.

Definition x_conf : lconf := LConf "app" sanitize_key 60000000000 "web1".
Definition x_run : list lop :=
  [LCmd "old" (WEvent "gone"); LFlush 1 true; LCmd "job" (WEvent "saw it"); LCmd "job" (WTiming "fetch" 1500000); LCmd "job" (WTiming "fetch" 500000)].
Example C95_example : lib_send_text go_float x_conf (lib_run x_conf lib0 x_run) 1700000000 =
  ["{""measure_time"":1700000000,""period"":60,""source"":""web1"",""gauges"":{""app.fetch.timing"":{""count"":2,""sum"":2,""min"":0.5,""max"":1.5,""sum_squares"":2.5,""attributes"":{""aggregate"":true,""display_units_long"":""ms""}},""app.job.fetch.timing"":{""count"":2,""sum"":2,""min"":0.5,""max"":1.5,""sum_squares"":2.5,""attributes"":{""aggregate"":true,""display_units_long"":""ms""}},""app.job.saw_it.count"":{""value"":1,""attributes"":{""aggregate"":true,""display_units_long"":""count""}},""app.saw_it.count"":{""value"":1,""attributes"":{""aggregate"":true,""display_units_long"":""count""}}}}"].
Proof. by vm_compute. Qed.
Example C95_example_hypotheses : float_codec go_float ∧ utf8_names x_conf ∧ in_int64 (c_period x_conf) ∧ since_flush [] x_run ≠ [] ∧
  Forall (λ x, modest x.2) (since_flush [] x_run).
Proof.
  split; [apply go_codec|]. split; [split; [by apply valid_plain|]; split; [by apply valid_plain|apply thm_sanitize_valid]|].
  split; [done|]. split; [done|]. by repeat constructor.
Qed.

(** ** C96 *)
(** The body posted for a report is a JSON document with the error, the frames
    in order, the job, the stage, the host and the key/values *)
Theorem C96_document : ∀ cfg job event msg frames kvs, Forall (λ f, in_int64 (f_line f) ∧ frame_ok f) frames →
  config_ok cfg → valid_utf8 job → valid_utf8 event → valid_utf8 msg → kvs_ok kvs →
  ∃ v body, notify_request cfg job event msg frames kvs = (bc_endpoint cfg, body) ∧ report_json cfg job event msg frames kvs v ∧ json_text v body.
Proof. exact thm_report. Qed.
Print Assumptions C96_document.

(** for text that is not UTF-8 it is that document up to the bytes replaced *)
Theorem C96_any_text : ∀ cfg job event msg frames kvs, Forall (λ f, in_int64 (f_line f)) frames →
  ∃ v v' body, notify_request cfg job event msg frames kvs = (bc_endpoint cfg, body) ∧ report_json cfg job event msg frames kvs v ∧
    jcoerced v v' ∧ json_text v' body.
Proof. exact thm_report_any. Qed.
Print Assumptions C96_any_text.

(** reports that differ have bodies that differ *)
Theorem C96_nothing_lost : ∀ cfg job event msg frames kvs cfg' job' event' msg' frames' kvs' body,
  Forall (λ f, in_int64 (f_line f) ∧ frame_ok f) frames → config_ok cfg → valid_utf8 job → valid_utf8 event → valid_utf8 msg → kvs_ok kvs →
  Forall (λ f, in_int64 (f_line f) ∧ frame_ok f) frames' → config_ok cfg' → valid_utf8 job' → valid_utf8 event' → valid_utf8 msg' → kvs_ok kvs' →
  (notify_request cfg job event msg frames kvs).2 = body → (notify_request cfg' job' event' msg' frames' kvs').2 = body →
  job = job' ∧ event = event' ∧ msg = msg' ∧ map frame_shown frames = map frame_shown frames' ∧ kvs = kvs' ∧
  bc_apikey cfg = bc_apikey cfg' ∧ bc_stage cfg = bc_stage cfg' ∧ bc_host cfg = bc_host cfg'.
Proof. exact thm_report_inj. Qed.
Print Assumptions C96_nothing_lost.

(** nothing is said exactly if the answer is OK; a line ends each complaint *)
Theorem C96_failures_reported : ∀ resp,
  (notify_stderr resp = "" ↔ resp = inr "OK") ∧
  (∀ e, resp = inl e → notify_stderr resp = "bugsnag.Notify: could not notify bugsnag. err=" +:+ e +:+ String (zchar 10) "") ∧
  (∀ body, resp = inr body → body ≠ "OK" →
    notify_stderr resp = "bugsnag.Notify: could not notify bugsnag. err=response from bugsnag wasn't 'OK'" +:+ String (zchar 10) "").
Proof. exact thm_failures. Qed.
Print Assumptions C96_failures_reported.
Example C96_example_failures : map notify_stderr [inr "OK"; inr "OK "; inr ""; inl "timeout"] =
  [""; "bugsnag.Notify: could not notify bugsnag. err=response from bugsnag wasn't 'OK'
"; "bugsnag.Notify: could not notify bugsnag. err=response from bugsnag wasn't 'OK'
"; "bugsnag.Notify: could not notify bugsnag. err=timeout
"].
Proof. reflexivity. Qed.

Definition x_config : bconfig := BConfig "key" "http://notify" "prod" "1.2.3" "web1".
Definition x_frames : list frame := [Frame "/src/b.go" 7 "Do" "github.com/x/y" false 0; Frame "/go/src/net/http/server.go" 1168 "HandlerFunc.ServeHTTP" "net/http" true 0].

(** the lines, indented with tabs *)
Definition lines_of (l : list (nat * string)) : string :=
  String.concat nl (map (λ x, String.concat "" (repeat (String tab "") x.1) +:+ x.2) l).
Example C96_example : notify_request x_config "job" "err" "said ""no""" x_frames (Some (list_to_map [("request", "/users?a=1&b"); ("user", "ann")])) =
  ("http://notify", lines_of
    [(0, "{"); (1, """apiKey"": ""key"","); (1, """notifier"": {"); (2, """name"": ""health"","); (2, """version"": ""1.0"",");
     (2, """url"": ""https://www.github.com/gocraft/health"""); (1, "},"); (1, """events"": ["); (2, "{"); (3, """payloadVersion"": ""2"",");
     (3, """exceptions"": ["); (4, "{"); (5, """errorClass"": ""err"","); (5, """message"": ""said \""no\"""","); (5, """stacktrace"": [");
     (6, "{"); (7, """file"": ""/src/b.go"","); (7, """lineNumber"": 7,"); (7, """method"": ""github.com/x/y:Do"","); (7, """inProject"": true"); (6, "},");
     (6, "{"); (7, """file"": ""/go/src/net/http/server.go"","); (7, """lineNumber"": 1168,"); (7, """method"": ""net/http:HandlerFunc.ServeHTTP"",");
     (7, """inProject"": false"); (6, "}"); (5, "]"); (4, "}"); (3, "],"); (3, """context"": ""job"",");
     (3, """app"": {"); (4, """releaseStage"": ""prod"""); (3, "},"); (3, """device"": {"); (4, """hostname"": ""web1"""); (3, "},");
     (3, """metaData"": {"); (4, """request"": {"); (5, """url"": ""/users?a=1\u0026b"","); (5, """parameters"": """""); (4, "},");
     (4, """kvs"": {"); (5, """request"": ""/users?a=1\u0026b"","); (5, """user"": ""ann"""); (4, "}"); (3, "}"); (2, "}"); (1, "]"); (0, "}")]%nat).
Proof. by vm_compute. Qed.
(** two reports that are not UTF-8, with the same body *)
Example C96_example_not_utf8 : let bad n := String (zchar n) "" in
  notify_request x_config (bad 254) "e" "m" [] None = notify_request x_config (bad 255) "e" "m" [] None.
Proof. by vm_compute. Qed.

(** ** C76 *)
(** two configurations make the same requests exactly if they agree on the API
    key, the endpoint, the stage and the host.  missing: the version, the defaults *)
Theorem C76_settings_partial : ∀ cfg cfg' job event msg frames kvs,
  Forall (λ f, in_int64 (f_line f) ∧ frame_ok f) frames → valid_utf8 job → valid_utf8 event → valid_utf8 msg → kvs_ok kvs → config_ok cfg → config_ok cfg' →
  notify_request cfg job event msg frames kvs = notify_request cfg' job event msg frames kvs ↔
  bc_apikey cfg = bc_apikey cfg' ∧ bc_endpoint cfg = bc_endpoint cfg' ∧ bc_stage cfg = bc_stage cfg' ∧ bc_host cfg = bc_host cfg'.
Proof. exact thm_settings. Qed.
Print Assumptions C76_settings_partial.
Example C76_example_settings : config_ok x_config ∧ config_ok (BConfig "key" "http://notify" "staging" "1.2.3" "web1") ∧
  notify_request x_config "job" "err" "no" [] None ≠ notify_request (BConfig "key" "http://notify" "staging" "1.2.3" "web1") "job" "err" "no" [] None.
Proof. split; [by split_and!; apply valid_plain|]. split; [by split_and!; apply valid_plain|]. vm_compute. congruence. Qed.
