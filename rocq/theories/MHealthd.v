(** * Model of healthd's aggregation state (healthd/healthd.go:12-93,192-329)

    The state owned by the pollAndAggregate goroutine and the four operations
    its loop performs on it.  The goroutines and channels are in
    MHealthdLoop.v. *)
From Verif Require Export MMerge.

(** A [time.Time] without monotonic reading, as produced by decoding JSON: the
    instant, in nanoseconds since Go's zero time, and the identity of its
    [*Location].  Go's [==] on such values compares both.  Decoding a time
    written with "Z" always gives location 0; one whose offset is healthd's
    local offset gives location 1; any other offset allocates a new location at
    every decoding (time.Parse, FixedZone), that is an identity not used before. *)
Notation gotime := (Z * N)%type (only parsing).
Definition utc : N := 0.

(** healthd.go:60-64 [hostAggregationKey]: time, instance, host and port *)
Notation hkey := (Z * N * string * string)%type (only parsing).
Definition key_time (k : hkey) : gotime := k.1.1.

(** An interval aggregation as decoded from a response.  [d_null] says that
    some entry of Jobs, Timers or EventErrs (at any level) is a JSON null, i.e.
    a nil pointer; [d_ia] is then the rest.  (Merge dereferences every entry it
    meets, so the only thing that matters about such entries is whether there
    is one.) *)
Record dagg := DAgg { d_loc : N; d_ia : ia; d_null : bool }.
Definition d_time (d : dagg) : gotime := (ia_start (d_ia d), d_loc d).

(** A published interval: what NewIntervalAggregation and Merge built. *)
Record pagg := PAgg { pa_loc : N; pa_ia : ia }.
Definition pa_time (p : pagg) : gotime := (ia_start (pa_ia p), pa_loc p).

(** healthd.go:46-58 [HostStatus]; instants only. *)
Record hstatus := HStatus {
  hs_hp : string;
  hs_check : Z; hs_inst : string; hs_dur : Z; hs_err : string; hs_nanos : Z; hs_code : Z;
  hs_first : Z; hs_last : Z }.

(** healthd.go:12-44 [HealthD], the aggregation part *)
Record hd := HD {
  hd_dur : Z;
  hd_max : Z;
  hd_pub : list pagg;
  hd_host : gmap hkey dagg;
  hd_need : gset gotime;
  hd_status : gmap string hstatus }.

(** healthd.go:74: two hours *)
Definition hd_retain : Z := 7200000000000.

(** healthd.go:71-84 *)
Definition hstatus0 (hp : string) : hstatus := HStatus hp 0 "" 0 "" 0 0 0 0.
Definition hd_init (hosts : list string) : hd :=
  HD 0 0 [] ∅ ∅ (fold_left (λ m hp, <[hp := hstatus0 hp]> m) hosts ∅).

(** healthd/poll.go:11-20 [pollResponse]; [None] in [r_aggs] is a null element *)
Record resp := Resp {
  r_hp : string; r_ts : Z; r_err : option string; r_code : Z; r_nanos : Z;
  r_inst : string; r_dur : Z; r_aggs : list (option dagg) }.

(** healthd.go:226 and 238 *)
Definition resp_good (r : resp) : bool :=
  (r_code r =? 200) && match r_err r with None => true | Some _ => false end.

(** healthd.go:214-231: the status of a known host; [t1] and [t2] are the two
    readings of the clock *)
Definition update_status (hs : hstatus) (r : resp) (t1 t2 : Z) : hstatus :=
  let first := if resp_good r then if hs_first hs =? 0 then t1 else hs_first hs else hs_first hs in
  let last := if resp_good r then t2 else hs_last hs in
  HStatus (hs_hp hs) (r_ts r) (r_inst r) (r_dur r)
    (match r_err r with None => "" | Some e => e end) (r_nanos r) (r_code r) first last.

(** healthd.go:247-261: the loop over the aggregations of a response *)
Fixpoint consume_aggs (inst hp : string) (l : list (option dagg)) (host : gmap hkey dagg) (need : gset gotime)
    : res (gmap hkey dagg * gset gotime) :=
  match l with
  | [] => Ok (host, need)
  | None :: _ => Crash "nil pointer dereference"
  | Some d :: l' =>
      let key := (d_time d, inst, hp) in
      match host !! key with
      | Some old =>
          if ia_serial (d_ia old) =? ia_serial (d_ia d) then consume_aggs inst hp l' host need
          else consume_aggs inst hp l' (<[key := d]> host) ({[d_time d]} ∪ need)
      | None => consume_aggs inst hp l' (<[key := d]> host) ({[d_time d]} ∪ need)
      end
  end.

(** healthd.go:213-263 [consumePollResponse] *)
Definition consume (s : hd) (r : resp) (t1 t2 : Z) : res hd :=
  let status := match hd_status s !! r_hp r with
                | Some hs => <[r_hp r := update_status hs r t1 t2]> (hd_status s)
                | None => hd_status s
                end in
  if resp_good r then
    if hd_dur s =? 0 then
      (* healthd.go:239-241 *)
      if r_dur r =? 0 then Crash "integer divide by zero"
      else
        x ←r consume_aggs (r_inst r) (r_hp r) (r_aggs r) (hd_host s) (hd_need s);
        Ok (HD (r_dur r) (Z.quot hd_retain (r_dur r)) (hd_pub s) x.1 x.2 status)
    else if hd_dur s =? r_dur r then
      x ←r consume_aggs (r_inst r) (r_hp r) (r_aggs r) (hd_host s) (hd_need s);
      Ok (HD (hd_dur s) (hd_max s) (hd_pub s) x.1 x.2 status)
    else Ok (HD (hd_dur s) (hd_max s) (hd_pub s) (hd_host s) (hd_need s) status)
  else Ok (HD (hd_dur s) (hd_max s) (hd_pub s) (hd_host s) (hd_need s) status).

(** time.Since: a saturating difference *)
Definition since (now t : Z) : Z :=
  let d := now - t in
  if d <? - 2 ^ 63 then - 2 ^ 63 else if 2 ^ 63 - 1 <? d then 2 ^ 63 - 1 else d.

(** healthd.go:274-277 and 325-328: keep the last [max] elements; slicing from
    beyond the end panics *)
Definition truncate_pub (max : Z) (l : list pagg) : res (list pagg) :=
  let n := Z.of_nat (length l) in
  if max <? n then
    if n <? n - max then Crash "slice bounds out of range"
    else Ok (drop (Z.to_nat (n - max)) l)
  else Ok l.

(** healthd.go:266-278 [purge].  The clock is read for every key: [now k].  The
    loop deletes entries of the map it ranges over, which Go allows; the keys
    left are those not older than the threshold at their reading. *)
Definition purge (s : hd) (now : hkey → Z) : res hd :=
  let threshold := w64 (hd_dur s * 5) in
  let host := filter (λ kd : hkey * dagg, ¬ (threshold < since (now kd.1) (key_time kd.1).1)) (hd_host s) in
  pub ←r truncate_pub (hd_max s) (hd_pub s);
  Ok (HD (hd_dur s) (hd_max s) pub host (hd_need s) (hd_status s)).

(** healthd.go:284-295: merge the entries of one time into a fresh aggregation;
    a nil entry inside one of them panics *)
Definition merge_entries (k : gotime) (l : list dagg) : res pagg :=
  if existsb d_null l then Crash "nil pointer dereference"
  else Ok (PAgg k.2 (merge_all k.1 (map d_ia l))).

(** healthd.go:313-318: replace the first entry with the same time *)
Fixpoint replace_pub (l : list pagg) (p : pagg) : option (list pagg) :=
  match l with
  | [] => None
  | q :: l' => if bool_decide (pa_time q = pa_time p) then Some (p :: l')
               else (q ::.) <$> replace_pub l' p
  end.

(** [sort.Sort(ByInterval(l))], healthd.go:322: some function that returns a
    permutation in which no element starts before an earlier one *)
Definition is_sorter (srt : list pagg → list pagg) : Prop :=
  ∀ l, srt l ≡ₚ l ∧ StronglySorted (λ p q, ia_start (pa_ia p) ≤ ia_start (pa_ia q)) (srt l).

(** healthd.go:311-329 [setAggregation] *)
Definition set_aggregation (srt : list pagg → list pagg) (max : Z) (pub : list pagg) (p : pagg) : res (list pagg) :=
  match replace_pub pub p with
  | Some pub' => Ok pub'
  | None => truncate_pub max (srt (pub ++ [p]))
  end.

(** The order in which Go visits the maps during one recalculation and the
    sorting function used: [ro_keys] enumerates intervalsNeedingRecalculation,
    [ro_entries k] the hostAggregations when looking for time [k]. *)
Record rorder := ROrder {
  ro_keys : list gotime;
  ro_entries : gotime → list (hkey * dagg);
  ro_sort : list pagg → list pagg }.

Definition rorder_ok (s : hd) (o : rorder) : Prop :=
  ro_keys o ≡ₚ elements (hd_need s) ∧ (∀ k, ro_entries o k ≡ₚ map_to_list (hd_host s)) ∧ is_sorter (ro_sort o).

(** healthd.go:283-297 *)
Fixpoint recalc_loop (o : rorder) (max : Z) (ks : list gotime) (pub : list pagg) : res (list pagg) :=
  match ks with
  | [] => Ok pub
  | k :: ks' =>
      let at_k := filter (λ kd : hkey * dagg, key_time kd.1 = k) (ro_entries o k) in
      p ←r merge_entries k (map snd at_k);
      pub ←r set_aggregation (ro_sort o) max pub p;
      recalc_loop o max ks' pub
  end.

(** healthd.go:280-303 [recalculateIntervals] (its own instrumentation left out) *)
Definition recalc (s : hd) (o : rorder) : res hd :=
  pub ←r recalc_loop o (hd_max s) (ro_keys o) (hd_pub s);
  Ok (HD (hd_dur s) (hd_max s) pub (hd_host s) ∅ (hd_status s)).

(** healthd.go:192-200 [memorySafeIntervals], on values *)
Definition safe_intervals (s : hd) : list pagg := hd_pub s.

(** healthd.go:202-211 [memorySafeHosts]: the statuses in the order [l] of the map *)
Definition safe_hosts (l : list (string * hstatus)) : list hstatus := map snd l.

(** The iterations of healthd.go:133-154 that change the state. *)
Inductive hop :=
  | HResp (r : resp) (t1 t2 : Z)
  | HPurge (now : hkey → Z)
  | HRecalc (o : rorder).

Definition hop_ok (s : hd) (op : hop) : Prop :=
  match op with HRecalc o => rorder_ok s o | _ => True end.

Definition hstep (s : hd) (op : hop) : res hd :=
  match op with
  | HResp r t1 t2 => consume s r t1 t2
  | HPurge now => purge s now
  | HRecalc o => recalc s o
  end.

(** [hrun s tr r]: the loop runs the operations [tr] from [s], every map
    visited in some order Go may choose; [r] is the resulting state or crash *)
Inductive hrun : hd → list hop → res hd → Prop :=
  | Hr_nil s : hrun s [] (Ok s)
  | Hr_step s op s' tr r : hop_ok s op → hstep s op = Ok s' → hrun s' tr r → hrun s (op :: tr) r
  | Hr_crash s op why tr : hop_ok s op → hstep s op = Crash why → hrun s (op :: tr) (Crash why).
