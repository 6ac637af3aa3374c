(** * Property theorems: the JSON documents (C32-C34, C47, C93, C94)

    [ff] is any rendering of floats that reads back as the same float, such as
    [go_float]; [off] gives the offset from UTC of the zone of each time; [loc]
    the location healthd makes of a zone; [msg] is the text of a marshalling
    error. *)
From Verif Require Import SWire STop PApi PApiEx PWire2 PPercent PWireEx PJobsPage.

Theorem go_float_codec : float_codec go_float.
Proof. exact go_codec. Qed.
Print Assumptions go_float_codec.

(** ** C32: the document is given to Fprintf as a format *)

(** a percent sign in a name makes the body something other than JSON *)
Theorem C32_body_refuted : ∃ body, health [CEvent "j" "100%"] = (200, body) ∧ ∀ v, ¬ json_text v body.
Proof. exact percent_breaks. Qed.
Print Assumptions C32_body_refuted.
(** or, worse, JSON that says something else *)
Theorem C32_names_refuted : events_of (reply_of [CEvent "j" "50%done"]) = [[("50%!d(MISSING)one", 1)]; []].
Proof. exact percent_renames. Qed.
Print Assumptions C32_names_refuted.

(** missing: names with a percent sign *)
Theorem C32_body_partial : ∀ ff off msg inst dur l, float_codec ff → no_percent inst → in_int64 dur → Forall (ia_ok no_percent off) l →
  ∃ v v', enc_health ff off inst dur l = Some v ∧ jcoerced v v' ∧
    serve_health ff off msg "/health" inst dur l = (200, indented 0 v) ∧ json_text v' (indented 0 v).
Proof. exact thm_health_body. Qed.
Print Assumptions C32_body_partial.
(** the same for the pages of healthd's API *)
Theorem C32_pages_partial : ∀ msg v, jall no_percent v →
  render msg (Some v) = (200, indented 0 v) ∧ ∃ v', jcoerced v v' ∧ json_text v' (indented 0 v).
Proof. exact thm_body. Qed.
Print Assumptions C32_pages_partial.
(** there is nothing between the two: a single percent sign in a name, wherever
    it is and whatever follows it, and the body is not the document *)
Theorem C32_body_exactly_partial : ∀ ff off msg inst dur l, float_codec ff → in_int64 dur → Forall (ia_ok (λ _, True) off) l →
  ∃ v, enc_health ff off inst dur l = Some v ∧
    (serve_health ff off msg "/health" inst dur l = (200, indented 0 v) ↔ no_percent inst ∧ Forall (ia_ok no_percent off) l).
Proof. exact thm_health_exact. Qed.
Print Assumptions C32_body_exactly_partial.
Theorem C32_pages_exactly_partial : ∀ msg v, jall (λ _, True) v →
  (render msg (Some v) = (200, indented 0 v) ↔ jall no_percent v).
Proof. exact thm_page_exact. Qed.
Print Assumptions C32_pages_exactly_partial.
(** a name that comes out as another one, the closest one gets to a text that
    stays, and a tree the theorem speaks about *)
Example C32_exactly_example :
  events_of (reply_of [CEvent "j" "100%%"]) = [[("100%", 1)]; []] ∧
  fprintf0 "%!!(MISSING)" = "%!!(MISSING)!(MISSING)" ∧ fprintf0 "%[%!d(MISSING)]%[%d]x" = "%[%!d(MISSING)]x" ∧
  jall (λ _, True) (JObj [("100%", JStr "x"); ("n", JBool true)]) ∧ ¬ jall no_percent (JObj [("100%", JStr "x"); ("n", JBool true)]).
Proof.
  split; [by vm_compute|]. split; [by vm_compute|]. split; [by vm_compute|]. split; [by repeat constructor|].
  intros H. inversion H as [| | | | |? Hl]; subst. inversion Hl as [|? ? [Hk _] _]; subst. cbn in Hk.
  unfold no_percent in Hk. rewrite Forall_forall in Hk. apply (Hk "%"%char); [|done]. cbn. set_solver.
Qed.

Example C32_example : health [] = (200, "{
	""instance_id"": ""host.1"",
	""interval_duration"": 60000000000,
	""aggregations"": [
		{
			""interval_start"": ""2024-03-01T00:00:00Z"",
			""serial_number"": 0,
			""jobs"": {},
			""timers"": {},
			""gauges"": {},
			""events"": {},
			""event_errs"": {}
		}
	]
}").
Proof. by vm_compute. Qed.
(** other paths *)
Theorem C32_other_paths : ∀ ff off msg path inst dur l, path ≠ "/health" →
  ∃ body, serve_health ff off msg path inst dur l = (404, body) ∧ json_text (JObj [("error", JStr "not_found")]) body.
Proof. exact thm_other_paths. Qed.
Print Assumptions C32_other_paths.
Example C32_example_other : serve_health go_float (λ _, 0) "" "/" "host.1" minute (served x_cmds) = (404, "{""error"": ""not_found""}").
Proof. by vm_compute. Qed.

(** ** C33: one NaN or infinity and nothing is served *)
Theorem C33_gauge_refuted : ∀ ff off msg inst dur l a k f,
  a ∈ l → am_gauges (ia_maps a) !! k = Some f → ffinite f = false → serve_health ff off msg "/health" inst dur l = (500, error_body msg).
Proof. exact nan_breaks. Qed.
Print Assumptions C33_gauge_refuted.

(** missing: NaN and infinities.  This is all it takes: with finite floats and
    years of four digits the document is there. *)
Theorem C33_served_partial : ∀ ff off msg inst dur l,
  (Forall (writable off) l → ∃ v, enc_health ff off inst dur l = Some v ∧ serve_health ff off msg "/health" inst dur l = (200, fprintf0 (indented 0 v))) ∧
  (¬ Forall (writable off) l → serve_health ff off msg "/health" inst dur l = (500, error_body msg)).
Proof. exact thm_renders. Qed.
Print Assumptions C33_served_partial.

Example C33_example :
  health [CEvent "j" "fine"; CGauge "j" "g" S754_nan] = (500, "{""error"": ""json: unsupported value: NaN""}") ∧
  (health [CEvent "j" "fine"; CGauge "j" "g" f0]).1 = 200 ∧
  (health [CGauge "j" "g" (S754_infinity true); CGauge "j" "g" f0; CEvent "k" "fine"]).1 = 200.
Proof. by vm_compute. Qed.

(** ** C34 *)

(** distinct names that are not UTF-8 become one *)
Theorem C34_names_refuted : events_of (reply_of [CEvent "j" ff_; CEvent "j" ff_; CEvent "j" fe_]) = [[(replacement, 2)]; []].
Proof. exact names_merged. Qed.
Print Assumptions C34_names_refuted.

(** missing: names that are not UTF-8 or contain a percent sign *)
Theorem C34_round_trip_partial : ∀ ff off msg inst dur l loc code nanos x part,
  float_codec ff → good_name inst → in_int64 dur → Forall (ia_ok good_name off) l →
  ∃ body, serve_health ff off msg "/health" inst dur l = (200, body) ∧
    fetch_of loc code nanos x part body = FReply code nanos (Reply inst dur (wire_ias off loc l)).
Proof. exact thm_round_trip. Qed.
Print Assumptions C34_round_trip_partial.

Example C34_example : flat_reply (reply_of x_cmds) = Some (200, 5, "host.1", minute, flat_aggs (wire_ias (λ _, 0) (λ _ _, 0%N) (served x_cmds))) ∧
  length (served x_cmds) = 2%nat.
Proof. split; [exact x_reply|by vm_compute]. Qed.

(** ** C47 *)
Theorem C47_one_object : ∀ ff ts job e kvs writes,
  float_codec ff → valid_utf8 ts → valid_utf8 job → emission_ok e → kvs_ok kvs →
  ∃ text v k, json_emit ff ts job e kvs writes = writes ++ [text] ∧ json_text v text ∧ emission_json ts job e k v ∧ kvs_json kvs k.
Proof. exact thm_json_emit. Qed.
Print Assumptions C47_one_object.

(** so no emission can pass for another (compare C45) *)
Theorem C47_not_forged : ∀ ff ts job e kvs ts' job' e' kvs' text,
  float_codec ff → valid_utf8 ts → valid_utf8 job → emission_ok e → kvs_ok kvs → valid_utf8 ts' → valid_utf8 job' → emission_ok e' → kvs_ok kvs' →
  json_emit ff ts job e kvs [] = [text] → json_emit ff ts' job' e' kvs' [] = [text] →
  ts = ts' ∧ job = job' ∧ kvs = kvs' ∧ same_emission e e'.
Proof. exact thm_json_inj. Qed.
Print Assumptions C47_not_forged.

Theorem C47_nothing_for_nan : ∀ ff ts job ev f kvs writes, ffinite f = false → json_emit ff ts job (WGauge ev f) kvs writes = writes.
Proof. exact thm_json_nothing. Qed.
Print Assumptions C47_nothing_for_nan.

Example C47_example :
  json_emit go_float "T" "j" (WGauge "g" (S754_finite false 7205759403792794 (-56))) (Some x_kvs) ["before"] =
    ["before"; "{""Job"":""j"",""Event"":""g"",""Timestamp"":""T"",""Value"":0.1,""Kvs"":{""a"":""\u003c\u0026\u003e"",""b"":""2""}}"] ∧
  json_emit go_float "T" "a""b" (WComplete Panic (-3)) None [] =
    ["{""Job"":""a\""b"",""Status"":""panic"",""Timestamp"":""T"",""Nanoseconds"":-3,""Kvs"":null}"] ∧
  json_emit go_float "T" "j" (WEventErr "e" "m") (Some ∅) [] = ["{""Job"":""j"",""Event"":""e"",""Timestamp"":""T"",""Err"":""m"",""Kvs"":{}}"] ∧
  json_emit go_float "T" "j" (WGauge "g" (S754_infinity false)) None ["before"] = ["before"].
Proof. by vm_compute. Qed.

(** ** C93: healthtop does not look at the status code

    Two completions of a job, one nanosecond apart, have a standard deviation of
    NaN (C60), which JSON cannot express.  healthd answers 500, and healthtop
    shows an empty list and "[success]". *)
Theorem C93_jobs_page_refuted : map aj_name <$> x_rows = Some ["j"; "ok"] ∧ ∀ ff,
  (render unsupported (enc_api_jobs ff "healthd.1" minute x_rows)).1 = 500 ∧
  ∀ x now, top_jobs_event x (render unsupported (enc_api_jobs ff "healthd.1" minute x_rows)).2 now = TResponse [] now.
Proof. exact (conj x_rows_names jobs_hidden). Qed.
Print Assumptions C93_jobs_page_refuted.

(** missing: rows with NaN or infinities, names that are not UTF-8 or contain a
    percent sign *)
Theorem C93_jobs_page_partial : ∀ ff msg inst dur rows x now, float_codec ff → good_name inst → in_int64 dur →
  (∀ l, rows = Some l → Forall (row_ok good_name) l) →
  ∃ body, render msg (enc_api_jobs ff inst dur rows) = (200, body) ∧ top_jobs_event x body now = TResponse (map Some (default [] rows)) now.
Proof. exact thm_jobs_page. Qed.
Print Assumptions C93_jobs_page_partial.

(** The page is refused exactly when a number of a row is not finite, and then
    healthtop shows an empty list: one such job hides all of them. *)
Theorem C93_hidden_exactly_partial : ∀ ff v inst dur rows, v ∈ ["NaN"; "+Inf"; "-Inf"] →
  let page := render ("json: unsupported value: " +:+ v) (enc_api_jobs ff inst dur rows) in
  (page.1 = 500 ↔ ∃ l j, rows = Some l ∧ j ∈ l ∧ (ffinite (aj_ss j) = false ∨ ffinite (aj_avg j) = false ∨ ffinite (aj_stddev j) = false)) ∧
  (page.1 = 500 → ∀ x now, top_jobs_event x page.2 now = TResponse [] now).
Proof. exact thm_jobs_hidden_exactly. Qed.
Print Assumptions C93_hidden_exactly_partial.

Example C93_example :
  let rows := handler_jobs (@isort ajob) [x_three] x_order "avg" "2" in
  top_jobs_event "" (render "" (enc_api_jobs go_float "healthd.1" minute rows)).2 7 = TResponse (map Some (default [] rows)) 7 ∧
  length (default [] rows) = 2%nat ∧
  top_jobs_event "" (render "" (enc_api_jobs go_float "healthd.1" minute None)).2 7 = TResponse [] 7.
Proof. by vm_compute. Qed.

(** ** C94: the text of an error is a format too *)
Theorem C94_hosts_page_refuted : ∃ h h', 
  top_hosts_event "" (render "" (enc_api_hosts (λ _, 0) "healthd.1" minute [h])).2 7 = TResponse [Some h'] 7 ∧
  host_cell h = ("Failure: lookup fe80::1%eth0: no such host", false) ∧
  host_cell h' = ("Failure: lookup fe80::1%!e(MISSING)th0: no such host", false).
Proof. exact hosts_garbled. Qed.
Print Assumptions C94_hosts_page_refuted.

(** One failing host can hide all: the error of a URL with a bad escape quotes a
    percent sign, the closing quote goes, and healthtop cannot read the page. *)
Theorem C94_page_lost_refuted : ∃ good bad,
  host_cell good = ("Success", true) ∧ host_cell bad = ("Failure: parse ""http://a%/health"": invalid URL escape ""%""", false) ∧
  (∀ x now, top_hosts_event x (render "" (enc_api_hosts (λ _, 0) "healthd.1" minute [good])).2 now = TResponse [Some good] now) ∧
  (render "" (enc_api_hosts (λ _, 0) "healthd.1" minute [good; bad])).1 = 200 ∧
  ∀ x now, top_hosts_event x (render "" (enc_api_hosts (λ _, 0) "healthd.1" minute [good; bad])).2 now = TError x now.
Proof.
  exists (HStatus "b:2" clock "b.77" minute "" 12 200 (clock - minute) clock).
  exists (HStatus "a%" clock "" 0 "parse ""http://a%/health"": invalid URL escape ""%""" 12 0 0 0).
  split; [vm_compute; reflexivity|]. split; [vm_compute; reflexivity|]. split; [intros x now; vm_compute; reflexivity|].
  split; [vm_compute; reflexivity|]. intros x now. vm_compute. reflexivity.
Qed.
Print Assumptions C94_page_lost_refuted.

Theorem C94_hosts_page_partial : ∀ off msg inst dur hosts x now, good_name inst → in_int64 dur → Forall (host_ok good_name off) hosts →
  ∃ body, render msg (enc_api_hosts off inst dur hosts) = (200, body) ∧ top_hosts_event x body now = TResponse (map Some hosts) now.
Proof. exact thm_hosts_page. Qed.
Print Assumptions C94_hosts_page_partial.

Example C94_example :
  let hosts := [hstatus0 "a:1"; HStatus "b:2" clock "b.77" minute "Get: ""x"" <y>" 12 200 (clock - minute) clock] in
  top_hosts_event "" (render "" (enc_api_hosts (λ _, 0) "healthd.1" minute hosts)).2 7 = TResponse (map Some hosts) 7.
Proof. by vm_compute. Qed.
