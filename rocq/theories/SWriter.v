(** * What the WriterSink should write (C44-C46) *)
From Verif Require Export SApi MWriter.

(** [l] lists the map in increasing byte order of the keys *)
Definition listing (m : gmap string string) (l : list (string * string)) : Prop :=
  StronglySorted str_lt (map fst l) ∧ ∀ k v, (k, v) ∈ l ↔ m !! k = Some v.

Definition kvs_text (l : list (string * string)) : string :=
  " kvs:[" +:+ String.concat " " (map (λ kv, kv.1 +:+ ":" +:+ kv.2) l) +:+ "]".

(** nothing for a nil map *)
Definition kvs_shown (kvs : option (gmap string string)) (t : string) : Prop :=
  match kvs with None => t = "" | Some m => ∃ l, listing m l ∧ t = kvs_text l end.

(** the largest unit worth using, and the name of it *)
Definition unit_of (nanos : Z) : Z * string :=
  if decide (nanos ≤ 2000) then (1, "ns") else if decide (nanos ≤ 2000000) then (1000, mu_s) else (1000000, "ms").
(** a time: a number of units, rounded down *)
Definition time_text (nanos : Z) (t : string) : Prop :=
  ∃ d n, int_numeral d n ∧ t = d +:+ " " +:+ (unit_of nanos).2 ∧
    n * (unit_of nanos).1 ≤ nanos < (n + 1) * (unit_of nanos).1.

(** the names of the completion statuses; there are no others *)
Inductive status_named : Z → string → Prop :=
  | Sn_success : status_named 0 "success"
  | Sn_validation : status_named 1 "validation_error"
  | Sn_panic : status_named 2 "panic"
  | Sn_error : status_named 3 "error"
  | Sn_junk : status_named 4 "junk"
  | Sn_other st : ¬ (0 ≤ st ≤ 4) → status_named st "".

(** what is written between the job and the key/values *)
Inductive shown (g : f64 → string) : emission → string → Prop :=
  | Sh_event e : shown g (WEvent e) (" event:" +:+ e)
  | Sh_err e m : shown g (WEventErr e m) (" event:" +:+ e +:+ " err:" +:+ m)
  | Sh_timing e n t : time_text n t → shown g (WTiming e n) (" event:" +:+ e +:+ " time:" +:+ t)
  | Sh_gauge e v : shown g (WGauge e v) (" event:" +:+ e +:+ " gauge:" +:+ g v)
  | Sh_complete st nm n t : status_named st nm → time_text n t → shown g (WComplete st n) (" status:" +:+ nm +:+ " time:" +:+ t).

(** newlines in a string, and in the texts of an emission *)
Definition newlines (s : string) : Z := Z.of_nat (byte_count newline s).
Definition emission_texts (g : f64 → string) (e : emission) : list string :=
  match e with
  | WEvent ev | WTiming ev _ => [ev]
  | WEventErr ev m => [ev; m]
  | WGauge ev v => [ev; g v]
  | WComplete _ _ => []
  end.
Definition total_newlines (l : list string) : Z := foldr Z.add 0 (map newlines l).
Definition kvs_newlines (kvs : option (gmap string string)) : Z :=
  match kvs with None => 0 | Some m => map_fold (λ k v n, newlines k + newlines v + n) 0 m end.
