(** * Model of the JSON documents: /health and the healthd API
      (json_polling_sink_http.go, the json tags of interval_aggregation.go,
      healthd/api.go:17-57,182-199), what healthd reads of them
      (healthd/poll.go:57-60) and the JsonWriterSink (json_writer_sink.go)

    A marshalling error is [None]; its text is an argument of the handler.
    [ff] writes a finite float64, as strconv does for encoding/json; [off] is
    the offset from UTC, in minutes, of the zone of a time. *)
From Verif Require Export MNum MRequest MWriter MApi MTop.

(** ** encoding *)
(** the entries of a map in the order of encoding/json: sorted by key *)
Definition key_le {V} (a b : string * V) : Prop := str_ltb b.1 a.1 = false.
#[global] Instance key_le_dec {V} : RelDecision (@key_le V).
Proof. intros a b. unfold key_le. apply _. Defined.
Definition sorted_entries {V} (m : gmap string V) : list (string * V) := merge_sort key_le (map_to_list m).

Definition all_some {A B} (f : A → option B) : list A → option (list B) :=
  fix go l := match l with
              | [] => Some []
              | x :: l' => y ←o f x; r ←o go l'; Some (y :: r)
              end.
Definition enc_int (n : Z) : json := JNum (dec_int n).
Definition enc_map {V} (enc : V → option json) (m : gmap string V) : option json :=
  l ←o all_some (λ kv, v ←o enc kv.2; Some (kv.1, v)) (sorted_entries m); Some (JObj l).

Section enc.
  Context (ff : f64 → string) (off : Z → Z).

  (** a float64: an error for NaN and the infinities *)
  Definition enc_float (f : f64) : option json := if ffinite f then Some (JNum (ff f)) else None.
  Definition enc_time (t : Z) : option json := s ←o time_text (off t) t; Some (JStr s).

  (** interval_aggregation.go:43-49 *)
  Definition timer_fields (t : timer) : option (list (string * json)) :=
    ss ←o enc_float (t_ss t);
    Some [("count", enc_int (t_count t)); ("nanos_sum", enc_int (t_sum t)); ("nanos_sum_squares", ss);
          ("nanos_min", enc_int (t_min t)); ("nanos_max", enc_int (t_max t))].
  Definition enc_timer (t : timer) : option json := l ←o timer_fields t; Some (JObj l).
  (** interval_aggregation.go:51-57: the samples are not exported *)
  Definition enc_errc (c : errc) : option json := Some (JObj [("count", enc_int (ec_count c))]).
  (** interval_aggregation.go:25-30 *)
  Definition maps_fields (m : amaps) : option (list (string * json)) :=
    ts ←o enc_map enc_timer (am_timers m);
    gs ←o enc_map enc_float (am_gauges m);
    es ←o enc_map (λ n, Some (enc_int n)) (am_events m);
    xs ←o enc_map enc_errc (am_errs m);
    Some [("timers", ts); ("gauges", gs); ("events", es); ("event_errs", xs)].
  (** interval_aggregation.go:32-41: the embedded structs come first *)
  Definition enc_job (j : jobagg) : option json :=
    ms ←o maps_fields (j_maps j);
    ts ←o timer_fields (j_timer j);
    Some (JObj (ms ++ ts ++
      [("count_success", enc_int (j_success j)); ("count_validation_error", enc_int (j_verror j));
       ("count_panic", enc_int (j_panic j)); ("count_error", enc_int (j_error j)); ("count_junk", enc_int (j_junk j))])).
  (** interval_aggregation.go:9-23 *)
  Definition enc_ia (a : ia) : option json :=
    st ←o enc_time (ia_start a);
    js ←o enc_map enc_job (ia_jobs a);
    ms ←o maps_fields (ia_maps a);
    Some (JObj ([("interval_start", st); ("serial_number", enc_int (ia_serial a)); ("jobs", js)] ++ ms)).

  (** json_polling_sink_http.go:10-14 *)
  Definition enc_health (inst : string) (dur : Z) (l : list ia) : option json :=
    as_ ←o all_some enc_ia l;
    Some (JObj [("instance_id", JStr inst); ("interval_duration", enc_int dur); ("aggregations", JArr as_)]).

  (** healthd/api.go:17-32 *)
  Definition enc_ajob (j : ajob) : option json :=
    ss ←o enc_float (aj_ss j); av ←o enc_float (aj_avg j); sd ←o enc_float (aj_stddev j);
    Some (JObj [("name", JStr (aj_name j)); ("count", enc_int (aj_count j)); ("count_success", enc_int (aj_success j));
      ("count_validation_error", enc_int (aj_verror j)); ("count_panic", enc_int (aj_panic j)); ("count_error", enc_int (aj_error j));
      ("count_junk", enc_int (aj_junk j)); ("nanos_sum", enc_int (aj_sum j)); ("nanos_sum_squares", ss);
      ("nanos_min", enc_int (aj_min j)); ("nanos_max", enc_int (aj_max j)); ("nanos_avg", av); ("nanos_std_dev", sd)]).
  (** healthd/api.go:34-42; [None]: the nil slice of filterJobs, null *)
  Definition enc_api_jobs (inst : string) (dur : Z) (l : option (list ajob)) : option json :=
    js ←o match l with None => Some JNull | Some l => a ←o all_some enc_ajob l; Some (JArr a) end;
    Some (JObj [("instance_id", JStr inst); ("interval_duration", enc_int dur); ("jobs", js)]).
  (** healthd/api.go:49-52 (44-47 has the fields of [enc_health]) *)
  Definition enc_api_overall (inst : string) (dur : Z) (o : option ia) : option json :=
    v ←o match o with None => Some JNull | Some a => enc_ia a end;
    Some (JObj [("instance_id", JStr inst); ("interval_duration", enc_int dur); ("overall", v)]).
  (** healthd/healthd.go:46-58 and api.go:54-57 *)
  Definition enc_host (h : hstatus) : option json :=
    c ←o enc_time (hs_check h); f ←o enc_time (hs_first h); l ←o enc_time (hs_last h);
    Some (JObj [("host_port", JStr (hs_hp h)); ("last_check_time", c); ("last_instance_id", JStr (hs_inst h));
      ("last_interval_duration", enc_int (hs_dur h)); ("last_err", JStr (hs_err h)); ("last_nanos", enc_int (hs_nanos h));
      ("last_code", enc_int (hs_code h)); ("first_successful_response", f); ("last_successful_response", l)]).
  Definition enc_api_hosts (inst : string) (dur : Z) (l : list hstatus) : option json :=
    hs ←o all_some enc_host l;
    Some (JObj [("instance_id", JStr inst); ("interval_duration", enc_int dur); ("hosts", JArr hs)]).
End enc.

(** ** serving *)
Definition q : string := String dquote "".
(** json_polling_sink_http.go:46-49 and healthd/api.go:196-199 [renderError]:
    [msg] is put between the quotes as it is *)
Definition error_body (msg : string) : string := "{" +:+ q +:+ "error" +:+ q +:+ ": " +:+ q +:+ msg +:+ q +:+ "}".
(** json_polling_sink_http.go:28-33, healthd/api.go:182-189 [renderJson]: status
    code and body *)
Definition render (msg : string) (doc : option json) : Z * string :=
  match doc with
  | Some v => (200, fprintf0 (indented 0 v))
  | None => (500, error_body msg)
  end.
(** json_polling_sink_http.go:20-39 [ServeHTTP]; [l] is what GetMetrics returned *)
Definition serve_health (ff : f64 → string) (off : Z → Z) (msg path inst : string) (dur : Z) (l : list ia) : Z * string :=
  if bool_decide (path = "/health") then render msg (enc_health ff off inst dur l)
  else (404, fprintf0 (error_body "not_found")).

(** ** decoding (json.Unmarshal into HealthAggregationsResponse)

    Field names are matched whatever the case of their letters (of ASCII
    letters only, here); the last of several fields with a name counts (Go
    decodes each of them into the same place, so that repeated objects are
    merged). *)
Definition lower (c : ascii) : ascii := if within 65 90 c then zchar (zcode c + 32) else c.
Fixpoint same_name (a b : string) : bool :=
  match a, b with
  | EmptyString, EmptyString => true
  | String x a', String y b' => Ascii.eqb (lower x) (lower y) && same_name a' b'
  | _, _ => false
  end.
(** null when the field is missing: it leaves the zero value in place as well *)
Fixpoint field (name : string) (l : list (string * json)) : json :=
  match l with
  | [] => JNull
  | (k, v) :: l' => if same_name k name && negb (existsb (λ kv, same_name kv.1 name) l') then v else field name l'
  end.

Definition dec_int64 (v : json) : option Z := match v with JNum s => MNum.parse_int s | JNull => Some 0 | _ => None end.
Definition dec_float (v : json) : option f64 := match v with JNum s => parse_float s | JNull => Some f0 | _ => None end.
Definition dec_str (v : json) : option string := match v with JStr s => Some s | JNull => Some "" | _ => None end.
Definition dec_time (v : json) : option (Z * Z) := match v with JStr s => parse_time s | JNull => Some (0, 0) | _ => None end.
(** the fields of an object; a null changes nothing *)
Definition members (v : json) : option (list (string * json)) := match v with JObj l => Some l | JNull => Some [] | _ => None end.
Definition dec_map {V} (dec : json → option V) (v : json) : option (gmap string V) :=
  ms ←o members v;
  l ←o all_some (λ kv, x ←o dec kv.2; Some (kv.1, x)) ms;
  Some (fold_left (λ m kv, <[kv.1 := kv.2]> m) l ∅).
(** a map of pointers: without its nil entries, and whether there are any *)
Definition dec_ptr_map {V} (dec : json → option V) (v : json) : option (gmap string V * bool) :=
  m ←o dec_map (λ x, match x with JNull => Some None | _ => y ←o dec x; Some (Some y) end) v;
  Some (omap id m, existsb (λ kv : string * option V, match kv.2 with None => true | Some _ => false end) (map_to_list m)).

Definition dec_timer_fields (l : list (string * json)) : option timer :=
    c ←o dec_int64 (field "count" l); s ←o dec_int64 (field "nanos_sum" l); ss ←o dec_float (field "nanos_sum_squares" l);
    mn ←o dec_int64 (field "nanos_min" l); mx ←o dec_int64 (field "nanos_max" l);
    Some (Timer c s ss mn mx).
Definition dec_timer (v : json) : option timer := l ←o members v; dec_timer_fields l.
Definition dec_errc (v : json) : option errc := l ←o members v; c ←o dec_int64 (field "count" l); Some (Errc c [None; None; None; None; None] 0).
Definition dec_maps (l : list (string * json)) : option (amaps * bool) :=
    ts ←o dec_ptr_map dec_timer (field "timers" l);
    gs ←o dec_map dec_float (field "gauges" l);
    es ←o dec_map dec_int64 (field "events" l);
    xs ←o dec_ptr_map dec_errc (field "event_errs" l);
    Some (AMaps ts.1 gs es xs.1, ts.2 || xs.2).
Definition dec_job (v : json) : option (jobagg * bool) :=
    l ←o members v;
    ms ←o dec_maps l; t ←o dec_timer_fields l;
    a ←o dec_int64 (field "count_success" l); b ←o dec_int64 (field "count_validation_error" l);
    c ←o dec_int64 (field "count_panic" l); d ←o dec_int64 (field "count_error" l); e ←o dec_int64 (field "count_junk" l);
    Some (JobAgg ms.1 t a b c d e, ms.2).
(** [loc]: the location of a time, from the zone in its text *)
Definition dec_ia (loc : Z → N) (v : json) : option (option dagg) :=
    match v with
    | JNull => Some None
    | _ =>
      l ←o members v;
      t ←o dec_time (field "interval_start" l); n ←o dec_int64 (field "serial_number" l);
      js ←o dec_ptr_map dec_job (field "jobs" l);
      ms ←o dec_maps l;
      Some (Some (DAgg (loc t.2) (IA t.1 n (fst <$> js.1) ms.1)
        (js.2 || ms.2 || existsb (λ kv : string * (jobagg * bool), kv.2.2) (map_to_list js.1))))
    end.
Fixpoint dec_ias (loc : nat → Z → N) (i : nat) (l : list json) : option (list (option dagg)) :=
    match l with
    | [] => Some []
    | v :: l' => x ←o dec_ia (loc i) v; r ←o dec_ias loc (S i) l'; Some (x :: r)
    end.
Definition dec_reply (loc : nat → Z → N) (v : json) : option reply :=
    l ←o members v;
    inst ←o dec_str (field "instance_id" l); dur ←o dec_int64 (field "interval_duration" l);
    as_ ←o match field "aggregations" l with JArr a => dec_ias loc 0 a | JNull => Some [] | _ => None end;
    Some (Reply inst dur as_).
(** poll.go:47-60: a body was read; [x] and [part] are the error of a failed
    decoding and what it had stored before *)
Definition fetch_of (loc : nat → Z → N) (code nanos : Z) (x : errv) (part : reply) (body : string) : fetch :=
  match (v ←o parse_json body; dec_reply loc v) with
  | Some y => FReply code nanos y
  | None => FDecode code nanos x part
  end.

(** ** what healthtop reads (cmd/healthtop/jobs.go:71-92, hosts.go:46-63)

    [None] elements are nil pointers, as null decodes to.  The status code is
    not looked at. *)
Definition dec_ajob (v : json) : option (option ajob) :=
  match v with
  | JNull => Some None
  | _ =>
    l ←o members v;
    nm ←o dec_str (field "name" l); c ←o dec_int64 (field "count" l); su ←o dec_int64 (field "count_success" l);
    ve ←o dec_int64 (field "count_validation_error" l); pa ←o dec_int64 (field "count_panic" l); er ←o dec_int64 (field "count_error" l);
    ju ←o dec_int64 (field "count_junk" l); sm ←o dec_int64 (field "nanos_sum" l); ss ←o dec_float (field "nanos_sum_squares" l);
    mn ←o dec_int64 (field "nanos_min" l); mx ←o dec_int64 (field "nanos_max" l); av ←o dec_float (field "nanos_avg" l);
    sd ←o dec_float (field "nanos_std_dev" l);
    Some (Some (AJob nm c su ve pa er ju sm ss mn mx av sd))
  end.
Definition dec_host (v : json) : option (option hstatus) :=
  match v with
  | JNull => Some None
  | _ =>
    l ←o members v;
    hp ←o dec_str (field "host_port" l); ck ←o dec_time (field "last_check_time" l); i ←o dec_str (field "last_instance_id" l);
    du ←o dec_int64 (field "last_interval_duration" l); er ←o dec_str (field "last_err" l); na ←o dec_int64 (field "last_nanos" l);
    co ←o dec_int64 (field "last_code" l); fi ←o dec_time (field "first_successful_response" l); la ←o dec_time (field "last_successful_response" l);
    Some (Some (HStatus hp ck.1 i du er na co fi.1 la.1))
  end.
Definition dec_rows {A} (name : string) (dec : json → option A) (v : json) : option (list A) :=
  l ←o members v;
  inst ←o dec_str (field "instance_id" l); dur ←o dec_int64 (field "interval_duration" l);
  match field name l with JArr a => all_some dec a | JNull => Some [] | _ => None end.
(** what the loop of healthtop receives for a body read in full; [x] is the text
    of the error if it cannot be decoded *)
Definition top_event {A} (name : string) (dec : json → option A) (x body : string) (now : Z) : tev (list A) :=
  match (v ←o parse_json body; dec_rows name dec v) with Some l => TResponse l now | None => TError x now end.
Definition top_jobs_event : string → string → Z → tev (list (option ajob)) := top_event "jobs" dec_ajob.
Definition top_hosts_event : string → string → Z → tev (list (option hstatus)) := top_event "hosts" dec_host.

(** ** json_writer_sink.go:13-92: the object of an emission.  [ts] is what
    timestamp() returns; a nil map is written as null. *)
Definition enc_kvs (kvs : option (gmap string string)) : json :=
  match kvs with None => JNull | Some m => JObj (map (λ kv, (kv.1, JStr kv.2)) (sorted_entries m)) end.
Definition enc_emission (ff : f64 → string) (ts job : string) (e : emission) (kvs : option (gmap string string)) : option json :=
  let k := [("Kvs", enc_kvs kvs)] in
  match e with
  | WEvent ev => Some (JObj ([("Job", JStr job); ("Event", JStr ev); ("Timestamp", JStr ts)] ++ k))
  | WEventErr ev m => Some (JObj ([("Job", JStr job); ("Event", JStr ev); ("Timestamp", JStr ts); ("Err", JStr m)] ++ k))
  | WTiming ev n => Some (JObj ([("Job", JStr job); ("Event", JStr ev); ("Timestamp", JStr ts); ("Nanoseconds", enc_int n)] ++ k))
  | WGauge ev v => x ←o enc_float ff v; Some (JObj ([("Job", JStr job); ("Event", JStr ev); ("Timestamp", JStr ts); ("Value", x)] ++ k))
  | WComplete st n => Some (JObj ([("Job", JStr job); ("Status", JStr (status_string st)); ("Timestamp", JStr ts); ("Nanoseconds", enc_int n)] ++ k))
  end.
(** the Writes made so far *)
Definition json_emit (ff : f64 → string) (ts job : string) (e : emission) (kvs : option (gmap string string)) (writes : list string) : list string :=
  match enc_emission ff ts job e kvs with
  | Some v => writes ++ [compact v]
  | None => writes
  end.
