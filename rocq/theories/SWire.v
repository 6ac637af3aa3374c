(** * What the JSON documents should say (C32, C33, C34, C47) *)
From Verif Require Export SJson SWriter MWire.

(** ** what can be written *)
(** a float64 that is a number *)
Definition float_ok (f : f64) : Prop := valid_binary 53 1024 f = true ∧ ffinite f = true.
(** [ff] writes a JSON number that reads as the same float64 *)
Definition float_codec (ff : f64 → string) : Prop :=
  ∀ f, float_ok f → number_text (ff f) ∧ parse_float (ff f) = Some f.
(** an offset from UTC of less than a day, in minutes *)
Definition zone_ok (off : Z) : Prop := -1440 < off < 1440.
(** local times in the years 0 to 9999, by the number of days since January 1,
    year 1 *)
Definition year_ok (off t : Z) : Prop :=
  let local := t + off * 60000000000 in
  -366 * 86400000000000 ≤ local < 3652059 * 86400000000000.

(** a name that survives *)
Definition good_name (s : string) : Prop := valid_utf8 s ∧ no_percent s.

Definition timer_ok (t : timer) : Prop :=
  in_int64 (t_count t) ∧ in_int64 (t_sum t) ∧ float_ok (t_ss t) ∧ in_int64 (t_min t) ∧ in_int64 (t_max t).
(** all the names satisfy [P], all the numbers are numbers *)
Definition maps_ok (P : string → Prop) (m : amaps) : Prop :=
  map_Forall (λ k t, P k ∧ timer_ok t) (am_timers m) ∧ map_Forall (λ k f, P k ∧ float_ok f) (am_gauges m) ∧
  map_Forall (λ k n, P k ∧ in_int64 n) (am_events m) ∧ map_Forall (λ k c, P k ∧ in_int64 (ec_count c)) (am_errs m).
Definition job_ok (P : string → Prop) (j : jobagg) : Prop :=
  maps_ok P (j_maps j) ∧ timer_ok (j_timer j) ∧ in_int64 (j_success j) ∧ in_int64 (j_verror j) ∧ in_int64 (j_panic j) ∧
  in_int64 (j_error j) ∧ in_int64 (j_junk j).
Definition ia_ok (P : string → Prop) (off : Z → Z) (a : ia) : Prop :=
  zone_ok (off (ia_start a)) ∧ year_ok (off (ia_start a)) (ia_start a) ∧ in_int64 (ia_serial a) ∧
  map_Forall (λ k j, P k ∧ job_ok P j) (ia_jobs a) ∧ maps_ok P (ia_maps a).

(** every float64 in an interval is a number and its time has four digits for the
    year: nothing else is asked of it *)
Definition finite_maps (m : amaps) : Prop :=
  (∀ k t, am_timers m !! k = Some t → ffinite (t_ss t) = true) ∧ (∀ k f, am_gauges m !! k = Some f → ffinite f = true).
Definition writable (off : Z → Z) (a : ia) : Prop :=
  year_ok (off (ia_start a)) (ia_start a) ∧ finite_maps (ia_maps a) ∧
  ∀ k j, ia_jobs a !! k = Some j → finite_maps (j_maps j) ∧ ffinite (t_ss (j_timer j)) = true.
(** a row of the jobs page, of the hosts page *)
Definition row_ok (P : string → Prop) (j : ajob) : Prop :=
  P (aj_name j) ∧ Forall in_int64 [aj_count j; aj_success j; aj_verror j; aj_panic j; aj_error j; aj_junk j; aj_sum j; aj_min j; aj_max j] ∧
  Forall float_ok [aj_ss j; aj_avg j; aj_stddev j].
Definition host_ok (P : string → Prop) (off : Z → Z) (h : hstatus) : Prop :=
  P (hs_hp h) ∧ P (hs_inst h) ∧ P (hs_err h) ∧ Forall in_int64 [hs_dur h; hs_nanos h; hs_code h] ∧
  Forall (λ t, zone_ok (off t) ∧ year_ok (off t) t) [hs_check h; hs_first h; hs_last h].

(** emissions with such names and numbers *)
Definition cmd_ok (P : string → Prop) (c : cmd) : Prop :=
  match c with
  | CEvent j e | CEventErr j e _ => P j ∧ P e
  | CTiming j e n => P j ∧ P e ∧ in_int64 n
  | CGauge j e f => P j ∧ P e ∧ float_ok f
  | CComplete j _ n => P j ∧ in_int64 n
  end.
(** a history of such emissions, at times that can be written *)
Definition history_ok (P : string → Prop) (off : Z → Z) (d : Z) (h : list (Z * aop)) : Prop :=
  ∀ t o, (t, o) ∈ h → (∀ c, o = OpCmd c → cmd_ok P c) ∧ zone_ok (off (truncate d t)) ∧ year_ok (off (truncate d t)) (truncate d t).

(** ** what arrives: the counts of errors without the samples *)
Definition wire_errc (c : errc) : errc := Errc (ec_count c) [None; None; None; None; None] 0.
Definition wire_maps (m : amaps) : amaps := AMaps (am_timers m) (am_gauges m) (am_events m) (wire_errc <$> am_errs m).
Definition wire_job (j : jobagg) : jobagg :=
  JobAgg (wire_maps (j_maps j)) (j_timer j) (j_success j) (j_verror j) (j_panic j) (j_error j) (j_junk j).
Definition wire_ia (a : ia) : ia := IA (ia_start a) (ia_serial a) (wire_job <$> ia_jobs a) (wire_maps (ia_maps a)).
(** in the order sent, each with the location its zone gives *)
Definition wire_ias (off : Z → Z) (loc : nat → Z → N) (l : list ia) : list (option dagg) :=
  imap (λ i a, Some (DAgg (loc i (off (ia_start a))) (wire_ia a) false)) l.

(** ** what the JsonWriterSink should write *)
(** the kvs as JSON: null, or an object with exactly these members, in order *)
Definition kvs_json (kvs : option (gmap string string)) (v : json) : Prop :=
  match kvs with
  | None => v = JNull
  | Some m => ∃ l, listing m l ∧ v = JObj (map (λ kv, (kv.1, JStr kv.2)) l)
  end.
(** a number that denotes an integer, or a float64 *)
Definition int_json (n : Z) (v : json) : Prop := ∃ s, v = JNum s ∧ int_numeral s n.
Definition float_json (f : f64) (v : json) : Prop := ∃ s, v = JNum s ∧ number_text s ∧ parse_float s = Some f.
Inductive emission_json (ts job : string) : emission → json → json → Prop :=
  | Ej_event ev k : emission_json ts job (WEvent ev) k (JObj [("Job", JStr job); ("Event", JStr ev); ("Timestamp", JStr ts); ("Kvs", k)])
  | Ej_err ev m k : emission_json ts job (WEventErr ev m) k (JObj [("Job", JStr job); ("Event", JStr ev); ("Timestamp", JStr ts); ("Err", JStr m); ("Kvs", k)])
  | Ej_timing ev n v k : int_json n v →
      emission_json ts job (WTiming ev n) k (JObj [("Job", JStr job); ("Event", JStr ev); ("Timestamp", JStr ts); ("Nanoseconds", v); ("Kvs", k)])
  | Ej_gauge ev f v k : float_json f v →
      emission_json ts job (WGauge ev f) k (JObj [("Job", JStr job); ("Event", JStr ev); ("Timestamp", JStr ts); ("Value", v); ("Kvs", k)])
  | Ej_complete st nm n v k : status_named st nm → int_json n v →
      emission_json ts job (WComplete st n) k (JObj [("Job", JStr job); ("Status", JStr nm); ("Timestamp", JStr ts); ("Nanoseconds", v); ("Kvs", k)]).
(** the texts of an emission are valid UTF-8, its numbers numbers *)
Definition emission_ok (e : emission) : Prop :=
  match e with
  | WEvent ev => valid_utf8 ev
  | WEventErr ev m => valid_utf8 ev ∧ valid_utf8 m
  | WTiming ev n => valid_utf8 ev ∧ in_int64 n
  | WGauge ev f => valid_utf8 ev ∧ float_ok f
  | WComplete _ n => in_int64 n
  end.
Definition kvs_ok (kvs : option (gmap string string)) : Prop :=
  match kvs with None => True | Some m => map_Forall (λ k v, valid_utf8 k ∧ valid_utf8 v) m end.
(** emissions that need not be told apart: statuses without a name are alike *)
Definition same_emission (e e' : emission) : Prop :=
  e = e' ∨ ∃ st st' n, ¬ (0 ≤ st ≤ 4) ∧ ¬ (0 ≤ st' ≤ 4) ∧ e = WComplete st n ∧ e' = WComplete st' n.
