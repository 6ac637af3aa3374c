(** * Specification vocabulary for healthd's aggregation

    In terms of the list of operations (responses, purges, recalculations)
    alone. *)
From Verif Require Export SMerge MHealthd.

(** a usable response: status 200 and decoded without error *)
Definition usable (r : resp) : Prop := r_code r = 200 ∧ r_err r = None.
#[global] Instance usable_dec r : Decision (usable r).
Proof. unfold usable. apply _. Defined.

Definition good_of (op : hop) : option resp :=
  match op with HResp r _ _ => if decide (usable r) then Some r else None | _ => None end.

(** the interval length of the first usable response *)
Definition conf_dur (tr : list hop) : option Z := r_dur <$> head (omap good_of tr).

(** response [r], arriving after [tr], is taken into account: it is usable and
    has the interval length of the first usable one *)
Definition counted (tr : list hop) (r : resp) : Prop :=
  usable r ∧ match conf_dur tr with None => True | Some d => r_dur r = d end.

(** the data of response [r] for [key], in the order listed *)
Definition reports_at (r : resp) (key : hkey) : list dagg :=
  omap (λ x : option dagg, match x with
             | Some d => if decide ((d_time d, r_inst r, r_hp r) = key) then Some d else None
             | None => None
             end) (r_aggs r).

(** a purge that finds [key] older than five intervals *)
Definition expires (tr : list hop) (key : hkey) (now : hkey → Z) : Prop :=
  w64 (default 0 (conf_dur tr) * 5) < since (now key) (key_time key).1.

(** operation [op], after [tr], replaces or removes the data of [key] *)
Definition touches (tr : list hop) (key : hkey) (op : hop) : Prop :=
  match op with
  | HResp r _ _ => counted tr r ∧ reports_at r key ≠ []
  | HPurge now => expires tr key now
  | HRecalc _ => False
  end.

(** [d] is the most recent data of [key]: the last one listed for it by some
    response taken into account, and neither replaced nor purged since *)
Definition is_latest (tr : list hop) (key : hkey) (d : dagg) : Prop :=
  ∃ tr1 r t1 t2 tr2, tr = tr1 ++ HResp r t1 t2 :: tr2 ∧ counted tr1 r ∧
    last (reports_at r key) = Some d ∧
    ∀ tr3 op tr4, tr2 = tr3 ++ op :: tr4 → ¬ touches (tr1 ++ HResp r t1 t2 :: tr3) key op.

(** every aggregation in the usable responses of a run of operations, by key *)
Definition reported (tr : list hop) (key : hkey) (d : dagg) : Prop :=
  ∃ r t1 t2, HResp r t1 t2 ∈ tr ∧ usable r ∧ d ∈ reports_at r key.

(** hosts give a new serial number to changed data *)
Definition serials_honest (tr : list hop) : Prop :=
  ∀ key d1 d2, reported tr key d1 → reported tr key d2 →
    ia_serial (d_ia d1) = ia_serial (d_ia d2) → d1 = d2.

Definition is_recalc (op : hop) : Prop := match op with HRecalc _ => True | _ => False end.
Definition is_purge (op : hop) : Prop := match op with HPurge _ => True | _ => False end.
Definition resp_of (hp : string) (op : hop) : Prop := match op with HResp r _ _ => r_hp r = hp | _ => False end.

(** [l] lists the most recent data of every key of time [k], once each *)
Definition latest_at (tr : list hop) (k : gotime) (l : list (hkey * dagg)) : Prop :=
  NoDup (map fst l) ∧ ∀ key d, (key, d) ∈ l ↔ is_latest tr key d ∧ key_time key = k.

(** all the data of usable responses for [key], in order *)
Definition reports_key (tr : list hop) (key : hkey) : list dagg :=
  concat (map (λ op, match op with HResp r _ _ => if decide (usable r) then reports_at r key else [] | _ => [] end) tr).

(** usable responses have a positive interval length, no null element and no
    null entry *)
Definition well_formed (tr : list hop) : Prop :=
  ∀ r t1 t2, HResp r t1 t2 ∈ tr → usable r →
    0 < r_dur r ∧ ∀ x, x ∈ r_aggs r → ∃ d, x = Some d ∧ d_null d = false.

(** every time in usable responses was written with the same zone, and
    decoded to the same location *)
Definition one_zone (loc : N) (tr : list hop) : Prop :=
  ∀ r t1 t2 d, HResp r t1 t2 ∈ tr → usable r → Some d ∈ r_aggs r → d_loc d = loc.

(** start times strictly increasing *)
Definition increasing (l : list pagg) : Prop :=
  StronglySorted (λ p q, ia_start (pa_ia p) < ia_start (pa_ia q)) l.

(** the responses of a host, with the two clock readings taken when each was
    consumed *)
Definition host_resps (hp : string) (tr : list hop) : list (resp * Z * Z) :=
  omap (λ op, match op with HResp r t1 t2 => if decide (r_hp r = hp) then Some (r, t1, t2) else None | _ => None end) tr.
Definition host_goods (hp : string) (tr : list hop) : list (resp * Z * Z) :=
  filter (λ x : resp * Z * Z, usable x.1.1) (host_resps hp tr).

(** the additive counters of an aggregation *)
Inductive mctr := KEvents (e : string) | KErrs (e : string) | KTimerCount (e : string) | KTimerSum (e : string).
Inductive jctr := KSuccess | KVError | KPanic | KError | KJunk | KCount | KSum | KIn (c : mctr).
Inductive ctr := KTop (c : mctr) | KJob (j : string) (c : jctr).
Definition mctr_val (c : mctr) (m : amaps) : Z :=
  match c with
  | KEvents e => ev m e | KErrs e => er m e
  | KTimerCount e => t_count (tm m e) | KTimerSum e => t_sum (tm m e)
  end.
Definition jctr_val (c : jctr) (j : jobagg) : Z :=
  match c with
  | KSuccess => j_success j | KVError => j_verror j | KPanic => j_panic j | KError => j_error j | KJunk => j_junk j
  | KCount => t_count (j_timer j) | KSum => t_sum (j_timer j) | KIn c => mctr_val c (j_maps j)
  end.
Definition ctr_val (c : ctr) (i : ia) : Z :=
  match c with
  | KTop c => mctr_val c (ia_maps i)
  | KJob j c => jctr_val c (mget (ia_jobs i) j job0)
  end.

(** [l] lists the most recent data of every key whose time is the instant [i],
    however it was written, once each *)
Definition latest_instant (tr : list hop) (i : Z) (l : list (hkey * dagg)) : Prop :=
  NoDup (map fst l) ∧ ∀ key d, (key, d) ∈ l ↔ is_latest tr key d ∧ (key_time key).1 = i.

(** no purge finds data of time [k] old *)
Definition never_expires (tr : list hop) (k : gotime) : Prop :=
  ∀ tr1 now tr2 key, tr = tr1 ++ HPurge now :: tr2 → key_time key = k → ¬ expires tr1 key now.

(** counter [c] of what each source reports for time [k] never shrinks *)
Definition growing (tr : list hop) (k : gotime) (c : ctr) : Prop :=
  ∀ key, key_time key = k → StronglySorted (λ d1 d2, ctr_val c (d_ia d1) ≤ ctr_val c (d_ia d2)) (reports_key tr key).
(** ... is never negative and has int64 values ... *)
Definition sane_reports (tr : list hop) (c : ctr) : Prop :=
  ∀ key d, reported tr key d → int64_ia (d_ia d) ∧ 0 ≤ ctr_val c (d_ia d).
(** ... and sums that fit an int64 at all times *)
Definition sums_fit (tr : list hop) (k : gotime) (c : ctr) : Prop :=
  ∀ tr1 tr2 l, tr = tr1 ++ tr2 → latest_at tr1 k l → zsum (map (λ kd : hkey * dagg, ctr_val c (d_ia kd.2)) l) < 2 ^ 63.

(** the same response as far as its contents go *)
Definition same_report (r r' : resp) : Prop :=
  r_hp r' = r_hp r ∧ r_code r' = r_code r ∧ r_err r' = r_err r ∧ r_inst r' = r_inst r ∧
  r_dur r' = r_dur r ∧ r_aggs r' = r_aggs r.
(** no interval is listed twice *)
Definition listed_once (r : resp) : Prop := NoDup (omap (fmap d_time) (r_aggs r)).

(** what a status should say about a host after [tr]: the data of its last
    response, the time of its first success and that of its last *)
Definition status_current (hp : string) (tr : list hop) (hs : hstatus) : Prop :=
  hs_hp hs = hp ∧
  match last (host_resps hp tr) with
  | Some (r, _, _) =>
      hs_check hs = r_ts r ∧ hs_inst hs = r_inst r ∧ hs_dur hs = r_dur r ∧ hs_err hs = default "" (r_err r) ∧
      hs_nanos hs = r_nanos r ∧ hs_code hs = r_code r
  | None => hs_check hs = 0 ∧ hs_inst hs = "" ∧ hs_dur hs = 0 ∧ hs_err hs = "" ∧ hs_nanos hs = 0 ∧ hs_code hs = 0
  end ∧
  hs_first hs = default 0 ((λ x : resp * Z * Z, x.1.2) <$> head (host_goods hp tr)) ∧
  hs_last hs = default 0 ((λ x : resp * Z * Z, x.2) <$> last (host_goods hp tr)).

(** the clock never reads Go's zero time (the year 1) *)
Definition clock_set (tr : list hop) : Prop := ∀ r t1 t2, HResp r t1 t2 ∈ tr → t1 ≠ 0.

(** *** What kills healthd *)
(** the first usable response gave a negative interval length, and one not
    longer than the two hours retained: the number of intervals kept is then
    negative *)
Definition backward (tr : list hop) : Prop := ∃ x, conf_dur tr = Some x ∧ -7200000000000 ≤ x < 0.
(** operation [op] in state [s], reached by [tr] *)
Definition deadly (tr : list hop) (s : hd) (op : hop) : Prop :=
  match op with
  | HResp r _ _ => counted tr r ∧ (None ∈ r_aggs r ∨ (conf_dur tr = None ∧ r_dur r = 0))
  | HPurge _ => backward tr
  | HRecalc _ =>
      (hd_need s ≠ ∅ ∧ backward tr) ∨
      (∃ key d, hd_host s !! key = Some d ∧ key_time key ∈ hd_need s ∧ d_null d = true)
  end.
