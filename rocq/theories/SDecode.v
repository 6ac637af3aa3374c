(** * What may be made of a JSON document of any shape (C108)

    As relations between a document and what is read from it: Go's rules for
    json.Unmarshal, for the types healthd and healthtop read. *)
From Verif Require Export SApi SWire MWire.

(** ** names are compared whatever the case of their (ASCII) letters *)
Definition same_letter (a b : ascii) : Prop :=
  a = b ∨ (65 ≤ zcode a ≤ 90 ∧ zcode b = zcode a + 32) ∨ (65 ≤ zcode b ≤ 90 ∧ zcode a = zcode b + 32).
Definition same_letters (s t : string) : Prop := Forall2 same_letter (list_ascii_of_string s) (list_ascii_of_string t).

(** an object's members; null stands for an object without members *)
Definition with_members (v : json) (l : list (string * json)) : Prop := v = JObj l ∨ (v = JNull ∧ l = []).
(** the last member so named, null if there is none *)
Definition member (name : string) (l : list (string * json)) (v : json) : Prop :=
  (∃ l1 k l2, l = l1 ++ (k, v) :: l2 ∧ same_letters k name ∧ ∀ k' v', (k', v') ∈ l2 → ¬ same_letters k' name) ∨
  ((∀ k' v', (k', v') ∈ l → ¬ same_letters k' name) ∧ v = JNull).

(** ** scalars: null leaves the zero value *)
(** whole numbers that fit into an int64: no fraction, no exponent *)
Definition an_int (v : json) (n : Z) : Prop :=
  (v = JNull ∧ n = 0) ∨ ∃ s, v = JNum s ∧ in_int64 n ∧ (numeral s n ∨ ∃ t, s = "-" +:+ t ∧ numeral t (- n)).
Definition a_float (v : json) (f : f64) : Prop := (v = JNull ∧ f = f0) ∨ ∃ s, v = JNum s ∧ parse_float s = Some f.
Definition a_text (v : json) (s : string) : Prop := (v = JNull ∧ s = "") ∨ v = JStr s.
(** an instant, and the offset of its zone *)
Definition a_time (v : json) (t off : Z) : Prop := (v = JNull ∧ t = 0 ∧ off = 0) ∨ ∃ s, v = JStr s ∧ parse_time s = Some (t, off).
Definition has {A} (name : string) (R : json → A → Prop) (l : list (string * json)) (x : A) : Prop := ∃ v, member name l v ∧ R v x.

(** ** maps: all members are read, the last of several with the same key stays *)
Definition last_of {A} (k : string) (l : list (string * A)) (x : A) : Prop :=
  ∃ l1 l2, l = l1 ++ (k, x) :: l2 ∧ ∀ x', (k, x') ∉ l2.
Definition a_map {V} (R : json → V → Prop) (v : json) (m : gmap string V) : Prop :=
  ∃ l, with_members v l ∧ (∀ k x, (k, x) ∈ l → ∃ y, R x y) ∧
    ∀ k y, m !! k = Some y ↔ ∃ x, last_of k l x ∧ R x y.
(** of pointers: null stands for the nil pointer; [nil]: there is one in the map *)
Definition a_ptr_map {V} (R : json → V → Prop) (v : json) (m : gmap string V) (nil : Prop) : Prop :=
  ∃ l, with_members v l ∧ (∀ k x, (k, x) ∈ l → x = JNull ∨ ∃ y, R x y) ∧
    (∀ k y, m !! k = Some y ↔ ∃ x, last_of k l x ∧ x ≠ JNull ∧ R x y) ∧
    (nil ↔ ∃ k, last_of k l JNull).

(** ** interval_aggregation.go:9-57: the documents of a sink; the errors seen are
    not part of them, so none are read *)
Definition timer_in (l : list (string * json)) (t : timer) : Prop :=
  has "count" an_int l (t_count t) ∧ has "nanos_sum" an_int l (t_sum t) ∧ has "nanos_sum_squares" a_float l (t_ss t) ∧
  has "nanos_min" an_int l (t_min t) ∧ has "nanos_max" an_int l (t_max t).
Definition a_timer (v : json) (t : timer) : Prop := ∃ l, with_members v l ∧ timer_in l t.
Definition an_errc (v : json) (c : errc) : Prop :=
  ∃ l, with_members v l ∧ has "count" an_int l (ec_count c) ∧ ec_samples c = replicate 5 None ∧ ec_index c = 0%nat.
Definition maps_in (l : list (string * json)) (m : amaps) (nil : Prop) : Prop :=
  ∃ nil1 nil2 : Prop, (∃ v, member "timers" l v ∧ a_ptr_map a_timer v (am_timers m) nil1) ∧
    has "gauges" (a_map a_float) l (am_gauges m) ∧ has "events" (a_map an_int) l (am_events m) ∧
    (∃ v, member "event_errs" l v ∧ a_ptr_map an_errc v (am_errs m) nil2) ∧ (nil ↔ nil1 ∨ nil2).
Definition a_job (v : json) (j : jobagg) (nil : Prop) : Prop :=
  ∃ l, with_members v l ∧ maps_in l (j_maps j) nil ∧ timer_in l (j_timer j) ∧
    has "count_success" an_int l (j_success j) ∧ has "count_validation_error" an_int l (j_verror j) ∧
    has "count_panic" an_int l (j_panic j) ∧ has "count_error" an_int l (j_error j) ∧ has "count_junk" an_int l (j_junk j).
(** a job together with whether it holds a nil pointer *)
Definition a_job_flag (v : json) (jb : jobagg * bool) : Prop := a_job v jb.1 (jb.2 = true).
(** an interval; [loc] makes a location of a zone *)
Definition an_interval (loc : Z → N) (v : json) (x : option dagg) : Prop :=
  match x with
  | None => v = JNull
  | Some d =>
    ∃ l t off jobs nil1 nil2, v = JObj l ∧
      (∃ u, member "interval_start" l u ∧ a_time u t off) ∧ has "serial_number" an_int l (ia_serial (d_ia d)) ∧
      (∃ u, member "jobs" l u ∧ a_ptr_map a_job_flag u jobs nil1) ∧ maps_in l (ia_maps (d_ia d)) nil2 ∧
      ia_start (d_ia d) = t ∧ d_loc d = loc off ∧ ia_jobs (d_ia d) = fst <$> jobs ∧
      (d_null d = true ↔ nil1 ∨ nil2 ∨ ∃ k j, jobs !! k = Some (j, true))
  end.
(** json_polling_sink_http.go:12-18 *)
Definition an_answer (loc : nat → Z → N) (v : json) (y : reply) : Prop :=
  ∃ l u, with_members v l ∧ has "instance_id" a_text l (y_inst y) ∧ has "interval_duration" an_int l (y_dur y) ∧
    member "aggregations" l u ∧
    ((u = JNull ∧ y_aggs y = []) ∨
     ∃ a, u = JArr a ∧ length (y_aggs y) = length a ∧
       ∀ i x z, a !! i = Some x → y_aggs y !! i = Some z → an_interval (loc i) x z).

(** ** healthd's pages, as healthtop reads them (healthd/api.go:23-28, 66-71, 226-240,
    healthd/healthd.go:46-58) *)
Definition a_job_row (v : json) (x : option ajob) : Prop :=
  match x with
  | None => v = JNull
  | Some r =>
    ∃ l, v = JObj l ∧ has "name" a_text l (aj_name r) ∧ has "count" an_int l (aj_count r) ∧
      has "count_success" an_int l (aj_success r) ∧ has "count_validation_error" an_int l (aj_verror r) ∧
      has "count_panic" an_int l (aj_panic r) ∧ has "count_error" an_int l (aj_error r) ∧ has "count_junk" an_int l (aj_junk r) ∧
      has "nanos_sum" an_int l (aj_sum r) ∧ has "nanos_sum_squares" a_float l (aj_ss r) ∧
      has "nanos_min" an_int l (aj_min r) ∧ has "nanos_max" an_int l (aj_max r) ∧
      has "nanos_avg" a_float l (aj_avg r) ∧ has "nanos_std_dev" a_float l (aj_stddev r)
  end.
Definition an_instant (v : json) (t : Z) : Prop := ∃ off, a_time v t off.
Definition a_host_row (v : json) (x : option hstatus) : Prop :=
  match x with
  | None => v = JNull
  | Some s =>
    ∃ l, v = JObj l ∧ has "host_port" a_text l (hs_hp s) ∧ has "last_check_time" an_instant l (hs_check s) ∧
      has "last_instance_id" a_text l (hs_inst s) ∧ has "last_interval_duration" an_int l (hs_dur s) ∧
      has "last_err" a_text l (hs_err s) ∧ has "last_nanos" an_int l (hs_nanos s) ∧ has "last_code" an_int l (hs_code s) ∧
      has "first_successful_response" an_instant l (hs_first s) ∧ has "last_successful_response" an_instant l (hs_last s)
  end.
Definition a_page {A} (name : string) (R : json → A → Prop) (v : json) (rows : list A) : Prop :=
  ∃ l u, with_members v l ∧ (∃ s, has "instance_id" a_text l s) ∧ (∃ n, has "interval_duration" an_int l n) ∧
    member name l u ∧ ((u = JNull ∧ rows = []) ∨ ∃ a, u = JArr a ∧ Forall2 R a rows).

(** no two members have the same name *)
Definition one_each (l : list (string * json)) : Prop :=
  ∀ i j k k' v v', l !! i = Some (k, v) → l !! j = Some (k', v') → same_letters k k' → i = j.
