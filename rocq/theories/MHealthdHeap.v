(** * Pointer-level model of healthd's aggregation state
      (healthd/healthd.go:116-163,192-329)

    On the machine of MHeap.v, with its Clone and Merge.  The loop holds
    pointers to the aggregations that were polled and to those it publishes.

    Simplifications.
    - The maps and the slice that only the loop holds (hostAggregations,
      intervalsNeedingRecalculation, intervalAggregations) are values whose
      elements are pointers; host statuses are values (memorySafeHosts copies
      them, healthd.go:206).
    - Beside a pointer stand the location of its start time and whether it has
      a nil entry, as in MHealthd.v. *)
From Verif Require Export MHealthd MHeap.

Record pptr := PPtr { pp_loc : N; pp_addr : addr }.
Record hptr := HPtr { hp_loc : N; hp_addr : addr; hp_null : bool }.

(** healthd.go:12-44 *)
Record phd := PHD {
  ph_dur : Z; ph_max : Z;
  ph_pub : list pptr;
  ph_host : gmap hkey hptr;
  ph_need : gset gotime;
  ph_status : gmap string hstatus }.
Definition phd_init (hosts : list string) : phd :=
  PHD 0 0 [] ∅ ∅ (fold_left (λ m hp, <[hp := hstatus0 hp]> m) hosts ∅).

(** poll.go:57: what decoding allocates.  (encoding/json is not code of /repo:
    all that matters is that every struct and map is new.) *)
Definition h_put_map {V} (K : gmap string addr → cell) (put : V → M addr) (m : gmap string V) : M addr :=
  pm ←h hfold (λ pm kv, p ←h put kv.2; hret (<[kv.1 := p]> pm)) (map_to_list m) ∅;
  halloc (K pm).
Definition h_put_maps (m : amaps) : M hmaps :=
  t ←h h_put_map VTimers (λ t, halloc (VTimer t)) (am_timers m);
  g ←h halloc (VGauges (am_gauges m));
  e ←h halloc (VEvents (am_events m));
  r ←h h_put_map VErrs (λ c, halloc (VErrc c)) (am_errs m);
  hret (HMaps t g e r).
Definition h_put_job (j : jobagg) : M addr :=
  maps ←h h_put_maps (j_maps j);
  halloc (VJob (HJob maps (j_timer j) (j_success j) (j_verror j) (j_panic j) (j_error j) (j_junk j))).
Definition h_put_ia (a : ia) : M addr :=
  jobs ←h h_put_map VJobs h_put_job (ia_jobs a);
  maps ←h h_put_maps (ia_maps a);
  halloc (VIa (HIA (ia_start a) (ia_serial a) jobs maps)).
Definition h_decoded (l : list (option dagg)) : M (list (option hptr)) :=
  hfold (λ out x, match x with
                  | Some d => p ←h h_put_ia (d_ia d); hret (out ++ [Some (HPtr (d_loc d) p (d_null d))])
                  | None => hret (out ++ [None])
                  end) l [].

(** healthd.go:247-261 *)
Fixpoint p_consume_aggs (inst hp : string) (l : list (option hptr)) (host : gmap hkey hptr) (need : gset gotime)
    : M (gmap hkey hptr * gset gotime) :=
  match l with
  | [] => hret (host, need)
  | None :: _ => hcrash "nil pointer dereference"
  | Some x :: l' =>
      i ←h load_ia (hp_addr x);
      let time := (hi_start i, hp_loc x) in
      let key := (time, inst, hp) in
      match host !! key with
      | Some old =>
          j ←h load_ia (hp_addr old);
          if hi_serial j =? hi_serial i then p_consume_aggs inst hp l' host need
          else p_consume_aggs inst hp l' (<[key := x]> host) ({[time]} ∪ need)
      | None => p_consume_aggs inst hp l' (<[key := x]> host) ({[time]} ∪ need)
      end
  end.

(** healthd.go:213-263 [consumePollResponse]; the aggregations of the response
    are where the decoding put them *)
Definition p_consume (s : phd) (r : resp) (aggs : list (option hptr)) (t1 t2 : Z) : M phd :=
  let status := match ph_status s !! r_hp r with
                | Some hs => <[r_hp r := update_status hs r t1 t2]> (ph_status s)
                | None => ph_status s
                end in
  if resp_good r then
    if ph_dur s =? 0 then
      if r_dur r =? 0 then hcrash "integer divide by zero"
      else
        x ←h p_consume_aggs (r_inst r) (r_hp r) aggs (ph_host s) (ph_need s);
        hret (PHD (r_dur r) (Z.quot hd_retain (r_dur r)) (ph_pub s) x.1 x.2 status)
    else if ph_dur s =? r_dur r then
      x ←h p_consume_aggs (r_inst r) (r_hp r) aggs (ph_host s) (ph_need s);
      hret (PHD (ph_dur s) (ph_max s) (ph_pub s) x.1 x.2 status)
    else hret (PHD (ph_dur s) (ph_max s) (ph_pub s) (ph_host s) (ph_need s) status)
  else hret (PHD (ph_dur s) (ph_max s) (ph_pub s) (ph_host s) (ph_need s) status).

(** healthd.go:274-277, 325-328 *)
Definition p_truncate (max : Z) (l : list pptr) : M (list pptr) :=
  let n := Z.of_nat (length l) in
  if max <? n then
    if n <? n - max then hcrash "slice bounds out of range"
    else hret (drop (Z.to_nat (n - max)) l)
  else hret l.

(** healthd.go:266-278 [purge] *)
Definition p_purge (s : phd) (now : hkey → Z) : M phd :=
  let threshold := w64 (ph_dur s * 5) in
  let host := filter (λ kd : hkey * hptr, ¬ (threshold < since (now kd.1) (key_time kd.1).1)) (ph_host s) in
  pub ←h p_truncate (ph_max s) (ph_pub s);
  hret (PHD (ph_dur s) (ph_max s) pub host (ph_need s) (ph_status s)).

(** healthd.go:284-295: [ks] are the keys of the map in the order visited *)
Definition p_merge_entries (k : gotime) (host : gmap hkey hptr) (ks : list hkey) : M pptr :=
  p ←h h_new_ia k.1;
  _ ←h hfold (λ _ key, match host !! key with
                       | Some x => if hp_null x then hcrash "nil pointer dereference" else h_merge_ia p (hp_addr x)
                       | None => hret tt
                       end) (filter (λ key, key_time key = k) ks) tt;
  hret (PPtr k.2 p).

(** the start of a published interval *)
Definition p_start (q : pptr) : M Z := i ←h load_ia (pp_addr q); hret (hi_start i).
(** healthd.go:313-318 *)
Fixpoint p_replace (l : list pptr) (start : Z) (p : pptr) : M (option (list pptr)) :=
  match l with
  | [] => hret None
  | q :: l' =>
      t ←h p_start q;
      if bool_decide ((t, pp_loc q) = (start, pp_loc p)) then hret (Some (p :: l'))
      else r ←h p_replace l' start p; hret ((q ::.) <$> r)
  end.

(** healthd.go:305-309,322: sort.Sort decides by comparisons of the start times
    alone; [perm] gives, for the list of start times, the positions in their
    new order *)
Definition p_sort (perm : list Z → list nat) (l : list pptr) : M (list pptr) :=
  ts ←h hfold (λ ts q, t ←h p_start q; hret (ts ++ [t])) l [];
  hret (omap (l !!.) (perm ts)).
Definition perm_ok (perm : list Z → list nat) : Prop :=
  ∀ l, perm l ≡ₚ seq 0 (length l) ∧ StronglySorted Z.le (omap (l !!.) (perm l)).

(** healthd.go:311-329 [setAggregation] *)
Definition p_set_aggregation (perm : list Z → list nat) (max : Z) (pub : list pptr) (p : pptr) : M (list pptr) :=
  t ←h p_start p;
  r ←h p_replace pub t p;
  match r with
  | Some pub' => hret pub'
  | None => pub ←h p_sort perm (pub ++ [p]); p_truncate max pub
  end.

(** the choices of one recalculation: the times and, for each, the keys of
    hostAggregations in the order visited, and the sorting *)
Record porder := POrder { po_times : list gotime; po_keys : gotime → list hkey; po_perm : list Z → list nat }.
Definition porder_ok (s : phd) (o : porder) : Prop :=
  po_times o ≡ₚ elements (ph_need s) ∧ (∀ k, po_keys o k ≡ₚ (map_to_list (ph_host s)).*1) ∧ perm_ok (po_perm o).

(** healthd.go:280-303 [recalculateIntervals] *)
Fixpoint p_recalc_loop (o : porder) (max : Z) (host : gmap hkey hptr) (ks : list gotime) (pub : list pptr) : M (list pptr) :=
  match ks with
  | [] => hret pub
  | k :: ks' =>
      p ←h p_merge_entries k host (po_keys o k);
      pub ←h p_set_aggregation (po_perm o) max pub p;
      p_recalc_loop o max host ks' pub
  end.
Definition p_recalc (s : phd) (o : porder) : M phd :=
  pub ←h p_recalc_loop o (ph_max s) (ph_host s) (po_times o) (ph_pub s);
  hret (PHD (ph_dur s) (ph_max s) pub (ph_host s) ∅ (ph_status s)).

(** healthd.go:192-200 [memorySafeIntervals] *)
Definition p_safe_intervals (s : phd) : M slice :=
  out ←h h_make (length (ph_pub s));
  hfold (λ out q, c ←h h_clone_ia (pp_addr q); h_append out c) (ph_pub s) out.

(** one iteration of healthd.go:133-154: the new state, and what was sent to a
    handler *)
Inductive pop :=
  | PResp (r : resp) (t1 t2 : Z)
  | PPurge (now : hkey → Z)
  | PRecalc (o : porder)
  | PRead.
Definition pop_ok (s : phd) (op : pop) : Prop :=
  match op with PRecalc o => porder_ok s o | _ => True end.
Definition p_step (s : phd) (op : pop) : M (phd * option slice) :=
  match op with
  | PResp r t1 t2 => aggs ←h h_decoded (r_aggs r); s ←h p_consume s r aggs t1 t2; hret (s, None)
  | PPurge now => s ←h p_purge s now; hret (s, None)
  | PRecalc o => s ←h p_recalc s o; hret (s, None)
  | PRead => out ←h p_safe_intervals s; hret (s, Some out)
  end.
