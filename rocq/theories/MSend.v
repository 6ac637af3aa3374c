(** * Model of the documents the Librato and Bugsnag sinks send
      (sinks/librato/sink.go:39-66,265-300, sinks/bugsnag/api.go:36-124)

    [ff] writes a finite float64 as in MWire.v. *)
From Verif Require Export MWire MLibrato MBugsnag.

(** ** Librato *)
(** sink.go:48-51, with the name of its tag *)
Definition enc_attrs (unit : string) : json := JObj [("aggregate", JBool true); ("display_units_long", JStr unit)].
(** sink.go:39-46, 53-56, 65-66 *)
Definition enc_lval (ff : f64 → string) (v : lval) : option json :=
  match v with
  | LG g =>
      s ←o enc_float ff (lg_sum g); mn ←o enc_float ff (lg_min g); mx ←o enc_float ff (lg_max g); ss ←o enc_float ff (lg_ss g);
      Some (JObj [("count", enc_int (lg_count g)); ("sum", s); ("min", mn); ("max", mx); ("sum_squares", ss); ("attributes", enc_attrs "ms")])
  | LC n => Some (JObj [("value", enc_int n); ("attributes", enc_attrs "count")])
  end.
(** sink.go:58-63: an empty source and an empty map are left out *)
Definition enc_post (ff : f64 → string) (p : lpost) : option json :=
  gs ←o enc_map (enc_lval ff) (po_gauges p);
  Some (JObj ([("measure_time", enc_int (po_time p)); ("period", enc_int (po_period p))] ++
    (if decide (po_source p = "") then [] else [("source", JStr (po_source p))]) ++
    (if decide (po_gauges p = ∅) then [] else [("gauges", gs)]))).
(** sink.go:289-297: the body of the request, None if json.Marshal fails *)
Definition post_body (ff : f64 → string) (p : lpost) : option string := v ←o enc_post ff p; Some (compact v).
(** sink.go:265-311 [send], with the document: the bodies sent *)
Definition lib_send_text (ff : f64 → string) (c : lconf) (s : lib) (now : Z) : list string :=
  if decide (lb_timers s = ∅ ∧ lb_counters s = ∅) then []
  else match post_body ff (LPost now (Z.quot (c_period c) 1000000000) (c_source c) (lib_gauges s)) with
       | Some b => [b]
       | None => []
       end.

(** ** Bugsnag *)
(** api.go:84-90 *)
Definition enc_bframe (f : bframe) : json :=
  JObj [("file", JStr (bf_file f)); ("lineNumber", enc_int (bf_line f)); ("method", JStr (bf_method f)); ("inProject", JBool (bf_inproject f))].
(** api.go:78-82; without frames the slice is nil *)
Definition enc_bexc (e : bexc) : json :=
  JObj [("errorClass", JStr (be_class e)); ("message", JStr (be_message e));
        ("stacktrace", match be_stack e with [] => JNull | l => JArr (map enc_bframe l) end)].
(** api.go:48-76, 92-95; [nil]: the map of key/values is nil *)
Definition enc_bevent (nil : bool) (e : bevent) : json :=
  JObj [("payloadVersion", JStr (bv_version e)); ("exceptions", JArr (map enc_bexc (bv_excs e))); ("context", JStr (bv_context e));
        ("app", JObj [("releaseStage", JStr (bv_stage e))]); ("device", JObj [("hostname", JStr (bv_host e))]);
        ("metaData", JObj [("request", JObj [("url", JStr (bv_url e)); ("parameters", JStr (bv_params e))]);
                           ("kvs", enc_kvs (if nil then None else Some (bv_kvs e)))])].
(** api.go:36-46 *)
Definition enc_payload (nil : bool) (p : bpayload) : json :=
  JObj [("apiKey", JStr (bp_apikey p));
        ("notifier", JObj [("name", JStr (bp_name p)); ("version", JStr (bp_nversion p)); ("url", JStr (bp_nurl p))]);
        ("events", JArr (map (enc_bevent nil) (bp_events p)))].
(** api.go:98-111 [Notify]: where and what is posted *)
Definition notify_request (cfg : bconfig) (job event message : string) (frames : list frame) (kvs : option (gmap string string)) : string * string :=
  let m := match kvs with Some m => m | None => ∅ end in
  (bc_endpoint cfg, indented 0 (enc_payload (match kvs with None => true | Some _ => false end) (new_payload cfg job event message frames m))).
(** api.go:110-123: what Notify reports; [resp] is what client.Post and ReadAll gave:
    an error text or the body *)
Definition notify_result (resp : string + string) : option string :=
  match resp with
  | inl err => Some err
  | inr body => if bool_decide (body = "OK") then None else Some "response from bugsnag wasn't 'OK'"
  end.
(** sink.go:79-87: the line on standard error *)
Definition notify_stderr (resp : string + string) : string :=
  match notify_result resp with
  | Some err => "bugsnag.Notify: could not notify bugsnag. err=" +:+ err +:+ nl
  | None => ""
  end.
