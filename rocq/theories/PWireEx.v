(** * Concrete documents *)
From Verif Require Import SWire STop PUtf8 PWriter PApi PApiEx PJson PJson2 PNum PNum2 PWire PWire2.

(** the intervals a sink serves one minute later, after the given emissions *)
Definition minute : Z := 60000000000.
(** 2024-02-29 23:59:30 UTC *)
Definition clock : Z := 63844847970000000000.
Definition served (l : list cmd) : list ia :=
  match (a ←r new_aggregator minute (60 * minute); a ←r agg_run a (map (λ c, (clock, OpCmd c)) l); memory_safe_intervals a (clock + minute)) with
  | Ok r => r.2
  | Crash _ => []
  end.
(** what encoding/json says of NaN *)
Definition unsupported : string := "json: unsupported value: NaN".
Definition health (l : list cmd) : Z * string :=
  serve_health go_float (λ _, 0) unsupported "/health" "host.1" minute (served l).
Definition reply_of (l : list cmd) : fetch :=
  fetch_of (λ _ _, 0%N) (health l).1 5 ENil (Reply "" 0 []) (health l).2.
Definition events_of (f : fetch) : list (list (string * Z)) :=
  match f with
  | FReply _ _ y => map (λ d, match d with Some d => map_to_list (am_events (ia_maps (d_ia d))) | None => [] end) (y_aggs y)
  | _ => []
  end.

(** ** C32 *)
Lemma not_json t : parse_json t = None → ∀ v, ¬ json_text v t.
Proof. intros H v Hv. apply parse_complete in Hv. congruence. Qed.
Lemma percent_breaks : ∃ body, health [CEvent "j" "100%"] = (200, body) ∧ ∀ v, ¬ json_text v body.
Proof. eexists. split; [vm_compute; reflexivity|]. apply not_json. by vm_compute. Qed.
Lemma percent_renames : events_of (reply_of [CEvent "j" "50%done"]) = [[("50%!d(MISSING)one", 1)]; []].
Proof. by vm_compute. Qed.

(** ** C33 *)
Lemma nan_breaks ff off msg inst dur l a k f :
  a ∈ l → am_gauges (ia_maps a) !! k = Some f → ffinite f = false → serve_health ff off msg "/health" inst dur l = (500, error_body msg).
Proof.
  intros Ha Hk Hf. apply (thm_renders ff off msg inst dur l). rewrite Forall_forall. intros H. destruct (H a Ha) as (_&[_ Hg]&_). specialize (Hg _ _ Hk). congruence.
Qed.
Lemma nan_served : health [CEvent "j" "fine"; CGauge "j" "g" S754_nan] = (500, error_body unsupported) ∧
  health [CGauge "j" "g" (S754_infinity true); CGauge "j" "g" f0; CEvent "k" "fine"] = health [CGauge "j" "g" f0; CGauge "j" "g" f0; CEvent "k" "fine"] ∧
  (health [CEvent "j" "fine"]).1 = 200.
Proof. by vm_compute. Qed.

(** ** C34 *)
Definition ff_ : string := String (zchar 255) "".
Definition fe_ : string := String (zchar 254) "".
Definition replacement : string := utf8 65533.
Lemma names_merged : events_of (reply_of [CEvent "j" ff_; CEvent "j" ff_; CEvent "j" fe_]) = [[(replacement, 2)]; []].
Proof. by vm_compute. Qed.

(** a minute with metrics of every kind, and the next one *)
Definition x_cmds : list cmd :=
  [CEvent "job" "<1>"; CEventErr "k" "oops" (Some (Err "m" [])); CTiming "k" "t" 1500; CTiming "k" "t" 2500;
   CGauge "k" "g" (S754_finite false 7205759403792794 (-56)); CComplete "k" Panic 77; CGauge "" "temp" (S754_finite true 5066549580791808 (-44))].
(** everything in an interval, as lists *)
Definition flat_maps (m : amaps) := (map_to_list (am_timers m), map_to_list (am_gauges m), map_to_list (am_events m), map_to_list (am_errs m)).
Definition flat_job (j : jobagg) := (flat_maps (j_maps j), j_timer j, (j_success j, j_verror j, j_panic j, j_error j, j_junk j)).
Definition flat (a : ia) := (ia_start a, ia_serial a, map (λ kj : string * jobagg, (kj.1, flat_job kj.2)) (map_to_list (ia_jobs a)), flat_maps (ia_maps a)).
Definition flat_aggs (l : list (option dagg)) := map (λ d, match d with Some d => Some (d_loc d, flat (d_ia d), d_null d) | None => None end) l.
Definition flat_reply (f : fetch) :=
  match f with FReply c n y => Some (c, n, y_inst y, y_dur y, flat_aggs (y_aggs y)) | _ => None end.
Lemma x_reply : flat_reply (reply_of x_cmds) = Some (200, 5, "host.1", minute, flat_aggs (wire_ias (λ _, 0) (λ _ _, 0%N) (served x_cmds))).
Proof. by vm_compute. Qed.
Lemma x_numbers : go_float (S754_finite false 7205759403792794 (-56)) = "0.1" ∧ go_float (S754_finite true 5066549580791808 (-44)) = "-288".
Proof. by vm_compute. Qed.
Lemma go_codec : float_codec go_float.
Proof. intros f [H1 H2]. by apply go_float_ok. Qed.

(** ** C47 *)
Definition x_kvs : gmap string string := list_to_map [("b", "2"); ("a", "<&>")].

(** ** C93, C94 *)
Definition x_good : ia := ia_apply x_cancel (CComplete "ok" Success 5).
Definition x_rows : option (list ajob) := handler_jobs (@isort ajob) [x_good] (map_to_list (ia_jobs x_good)) "name" "".
Lemma x_rows_names : map aj_name <$> x_rows = Some ["j"; "ok"].
Proof. by vm_compute. Qed.
Lemma jobs_hidden ff : (render unsupported (enc_api_jobs ff "healthd.1" minute x_rows)).1 = 500 ∧
  ∀ x now, top_jobs_event x (render unsupported (enc_api_jobs ff "healthd.1" minute x_rows)).2 now = TResponse [] now.
Proof. split; [by vm_compute|]. intros x now. by vm_compute. Qed.
Lemma hosts_garbled : ∃ h h',
  top_hosts_event "" (render "" (enc_api_hosts (λ _, 0) "healthd.1" minute [h])).2 7 = TResponse [Some h'] 7 ∧
  host_cell h = ("Failure: lookup fe80::1%eth0: no such host", false) ∧
  host_cell h' = ("Failure: lookup fe80::1%!e(MISSING)th0: no such host", false).
Proof.
  exists (HStatus "[fe80::1%eth0]:1" clock "" 0 "lookup fe80::1%eth0: no such host" 12 0 0 0).
  eexists (HStatus _ _ _ _ _ _ _ _ _). split; [vm_compute; reflexivity|by vm_compute].
Qed.

(** ** other paths *)
Lemma thm_other_paths ff off msg path inst dur l : path ≠ "/health" →
  ∃ body, serve_health ff off msg path inst dur l = (404, body) ∧ json_text (JObj [("error", JStr "not_found")]) body.
Proof.
  intros H. unfold serve_health. rewrite bool_decide_false by done. eexists. split; [reflexivity|].
  assert (Q : ∀ s, coerced s s → string_text s (quote s)) by (intros; by apply quote_ok).
  assert (B : blank " ") by (constructor; [set_solver|constructor]). assert (B0 : blank "") by constructor.
  apply value_json. apply (Vt_obj _ (quote "error" +:+ ":" +:+ " " +:+ quote "not_found")).
  apply (Mt_one "error" (quote "error") (JStr "not_found") (quote "not_found") "" "" " " ""); try done.
  - apply Q. apply coerced_valid. exists [101; 114; 114; 111; 114]; split; [repeat constructor; unfold scalar; lia|reflexivity].
  - constructor. apply Q. apply coerced_valid. exists [110; 111; 116; 95; 102; 111; 117; 110; 100]; split; [repeat constructor; unfold scalar; lia|reflexivity].
Qed.
