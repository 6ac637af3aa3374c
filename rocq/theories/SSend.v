(** * What the Librato and Bugsnag sinks should send (C95, C96) *)
From Verif Require Export SLibrato SWire SStack MSend.

(** ** Librato *)
Definition attrs_json (unit : string) : json := JObj [("aggregate", JBool true); ("display_units_long", JStr unit)].
(** the entry for the name [k]: the count of events, or the summary of the
    measurements *)
Definition entry_json (c : lconf) (cmds : lcmds) (k : string) (v : json) : Prop :=
  (hits c k cmds > 0 ∧ samples c k cmds = [] ∧ ∃ n, int_json (w64 (hits c k cmds)) n ∧
     v = JObj [("value", n); ("attributes", attrs_json "count")]) ∨
  (hits c k cmds = 0 ∧ ∃ g n s mn mx ss, SLibrato.summarises (samples c k cmds) g ∧
     int_json (lg_count g) n ∧ float_json (lg_sum g) s ∧ float_json (lg_min g) mn ∧ float_json (lg_max g) mx ∧ float_json (lg_ss g) ss ∧
     v = JObj [("count", n); ("sum", s); ("min", mn); ("max", mx); ("sum_squares", ss); ("attributes", attrs_json "ms")]).
(** the document for the commands [cmds]: one entry for each name they touch *)
Definition post_json (c : lconf) (cmds : lcmds) (now : Z) (v : json) : Prop :=
  ∃ t p l, int_json now t ∧ int_json (Z.quot (c_period c) 1000000000) p ∧
    NoDup (map fst l) ∧
    (∀ k, k ∈ map fst l ↔ hits c k cmds ≠ 0 ∨ samples c k cmds ≠ []) ∧
    (∀ k x, (k, x) ∈ l → entry_json c cmds k x) ∧
    v = JObj ([("measure_time", t); ("period", p)] ++
              match c_source c with EmptyString => [] | s => [("source", JStr s)] end ++ [("gauges", JObj l)]).
(** names written in UTF-8 *)
Definition utf8_names (c : lconf) : Prop :=
  valid_utf8 (c_source c) ∧ valid_utf8 (c_prefix c) ∧ ∀ s, valid_utf8 (c_san c s).
(** durations are int64s, gauges are float64s *)
Definition measurable (e : emission) : Prop :=
  match e with
  | WTiming _ n | WComplete _ n => in_int64 n
  | WGauge _ f => valid_binary 53 1024 f = true
  | _ => True
  end.
(** the summaries of the measurements are finite *)
Definition summable (c : lconf) (cmds : lcmds) : Prop :=
  ∀ k g, SLibrato.summarises (samples c k cmds) g → finite (lg_sum g) ∧ finite (lg_min g) ∧ finite (lg_max g) ∧ finite (lg_ss g).

(** ** Bugsnag *)
Definition frame_json (f : frame) (v : json) : Prop :=
  ∃ n, int_json (f_line f) n ∧
    v = JObj [("file", JStr (f_file f)); ("lineNumber", n); ("method", JStr (f_pkg f +:+ ":" +:+ f_name f)); ("inProject", JBool (negb (f_system f)))].
(** no frames: null *)
Definition frames_json (l : list frame) (v : json) : Prop :=
  (l = [] ∧ v = JNull) ∨ (l ≠ [] ∧ ∃ vs, Forall2 frame_json l vs ∧ v = JArr vs).
(** the value of a key, "" if it is missing *)
Definition value_or_empty (kvs : option (gmap string string)) (key s : string) : Prop :=
  match kvs with
  | Some m => (m !! key = Some s) ∨ (m !! key = None ∧ s = "")
  | None => s = ""
  end.
Definition report_json (cfg : bconfig) (job event message : string) (frames : list frame) (kvs : option (gmap string string)) (v : json) : Prop :=
  ∃ st k url params, frames_json frames st ∧ kvs_json kvs k ∧ value_or_empty kvs "request" url ∧ value_or_empty kvs "formdata" params ∧
    v = JObj
      [("apiKey", JStr (bc_apikey cfg));
       ("notifier", JObj [("name", JStr "health"); ("version", JStr "1.0"); ("url", JStr "https://www.github.com/gocraft/health")]);
       ("events", JArr [JObj
         [("payloadVersion", JStr "2");
          ("exceptions", JArr [JObj [("errorClass", JStr event); ("message", JStr message); ("stacktrace", st)]]);
          ("context", JStr job);
          ("app", JObj [("releaseStage", JStr (bc_stage cfg))]);
          ("device", JObj [("hostname", JStr (bc_host cfg))]);
          ("metaData", JObj [("request", JObj [("url", JStr url); ("parameters", JStr params)]); ("kvs", k)])]])].
Definition frame_ok (f : frame) : Prop := valid_utf8 (f_file f) ∧ valid_utf8 (f_pkg f) ∧ valid_utf8 (f_name f).
Definition config_ok (cfg : bconfig) : Prop := valid_utf8 (bc_apikey cfg) ∧ valid_utf8 (bc_stage cfg) ∧ valid_utf8 (bc_host cfg).
(** what a report shows of a frame: the method is package and name with a colon *)
Definition frame_shown (f : frame) : string * Z * string * bool := (f_file f, f_line f, f_pkg f +:+ ":" +:+ f_name f, f_system f).
