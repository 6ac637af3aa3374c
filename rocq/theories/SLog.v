(** * What a stream's log sinks should write (C133-C135) *)
From Verif Require Export SHealth SWire MLog.

(** states an application can reach, panics recovered *)
Definition l_reach (env : logenv) (s : lstate) : Prop :=
  ∃ clock tr, l_run env (LS (world0 clock) []) tr s.

(** maps are enumerated in some order and sorted correctly *)
Definition env_ok (env : logenv) : Prop :=
  correct_sort (le_srt env) ∧ ∀ n m, le_ord env n m ≡ₚ map fst (map_to_list m).

(** the error a call reports *)
Definition err_of (a : api) : option errv :=
  match a with ApiEventErr _ _ e _ | ApiEventErrKv _ _ e _ _ => Some e | _ => None end.
(** the error handed over by a call *)
Definition handed (a : api) : option errv :=
  match a with ApiMute e | ApiEventErr _ _ e _ | ApiEventErrKv _ _ e _ _ => Some e | _ => None end.
(** the message of an error can be read *)
Definition has_text (w : world) (e : errv) : Prop := ∃ t, text_of w e t.
(** what fmt.Sprint makes of it *)
Definition printed (env : logenv) (w : world) (e : errv) (t : string) : Prop :=
  text_of w e t ∨ (¬ has_text w e ∧ t = le_panic env).

(** times are int64 values *)
Definition int_times (a : api) : Prop :=
  match a with ApiTiming _ _ n | ApiTimingKv _ _ n _ => in_int64 n | _ => True end.

(** what a call has to say, error texts as given by [text] *)
Inductive says (text : errv → string → Prop) (w w' : world) (jb : job) : api → MWriter.emission → Prop :=
  | Sy_event j ev : says text w w' jb (ApiEvent j ev) (WEvent ev)
  | Sy_eventkv j ev i : says text w w' jb (ApiEventKv j ev i) (WEvent ev)
  | Sy_err j ev e s t : text e t → says text w w' jb (ApiEventErr j ev e s) (WEventErr ev t)
  | Sy_errkv j ev e i s t : text e t → says text w w' jb (ApiEventErrKv j ev e i s) (WEventErr ev t)
  | Sy_timing j ev n : says text w w' jb (ApiTiming j ev n) (WTiming ev n)
  | Sy_timingkv j ev n i : says text w w' jb (ApiTimingKv j ev n i) (WTiming ev n)
  | Sy_gauge j ev v : says text w w' jb (ApiGauge j ev v) (WGauge ev v)
  | Sy_gaugekv j ev v i : says text w w' jb (ApiGaugeKv j ev v i) (WGauge ev v)
  | Sy_complete j st t : (w_ticks w ≤ t < w_ticks w')%nat →
      says text w w' jb (ApiComplete j st) (WComplete st (sub_sat (w_clock w t) (jb_start jb)))
  | Sy_completekv j st i t : (w_ticks w ≤ t < w_ticks w')%nat →
      says text w w' jb (ApiCompleteKv j st i) (WComplete st (sub_sat (w_clock w t) (jb_start jb))).

(** the key/values of the call over those of the job over those of the stream;
    [None] if there are none *)
Definition levels_map (w : world) (st : stream) (jb : job) (inst : option nat) (m : option (gmap string string)) : Prop :=
  m ≠ Some ∅ ∧ ∀ key, default ∅ m !! key = lookup_levels (kvs w (st_kvs st)) (kvs w (jb_kvs jb)) (kvs w inst) key.

(** the line of a WriterSink *)
Definition log_line (env : logenv) (n : nat) (name : string) (e : MWriter.emission) (m : option (gmap string string)) (t : string) : Prop :=
  ∃ what kvt, shown (le_g env) e what ∧ kvs_shown m kvt ∧
    t = "[" +:+ le_ts env n +:+ "]: job:" +:+ name +:+ what +:+ kvt +:+ nl.
(** the object of a JsonWriterSink; none for a gauge that is not a number *)
Definition log_object (env : logenv) (n : nat) (name : string) (e : MWriter.emission) (m : option (gmap string string)) (b : option string) : Prop :=
  (∀ ev v, e = WGauge ev v → ffinite v = false → b = None) ∧
  (float_codec (le_ff env) → valid_utf8 (le_ts env n) → valid_utf8 name → emission_ok e → kvs_ok m →
   ∃ t v k, b = Some t ∧ json_text v t ∧ emission_json (le_ts env n) name e k v ∧ kvs_json m k).

(** what call [a], from [w] to [w'], must make the sink [k], the [n]-th one
    called, write *)
Definition logs (env : logenv) (w w' : world) (st : stream) (jb : job) (a : api) (inst : option nat) (n k : nat) (b : option string) : Prop :=
  match le_kind env k with
  | SkQuiet => b = None
  | SkWriter => ∃ e m t, says (text_of w) w w' jb a e ∧ levels_map w st jb inst m ∧ b = Some t ∧ log_line env n (jb_name jb) e m t
  | SkJson => ∃ e m, says (printed env w) w w' jb a e ∧ levels_map w st jb inst m ∧ log_object env n (jb_name jb) e m b
  end.

(** the Writes of the sinks [ks], of which [bs] says what each wrote *)
Definition writes_of (ks : list nat) (bs : list (option string)) : list (nat * string) :=
  omap (λ kb : nat * option string, (λ t, (kb.1, t)) <$> kb.2) (zip ks bs).

(** the sinks attached before the first WriterSink *)
Fixpoint before_writer (env : logenv) (ks : list nat) : list nat :=
  match ks with
  | [] => []
  | k :: ks' => match le_kind env k with SkWriter => [] | _ => k :: before_writer env ks' end
  end.
Definition is_writer (env : logenv) (k : nat) : Prop := le_kind env k = SkWriter.
