(** * Property theorems: healthd's aggregation (C52-C58)

    [hrun (hd_init hosts) tr (Ok s)]: healthd, started for [hosts], has
    performed the operations [tr] (responses consumed, purges,
    recalculations), visiting its maps in any order, and is in state [s]. *)
From Verif Require Import SHealthd SHealthd2 SRepoll PHealthd PHealthd2 PHealthd4 PHealthd5 PHealthd6 PHealthd7 PHealthdEx PHealthdEx2 PRepoll.

(** the run used by the examples: two hosts, two rounds, two intervals *)
Example C52_C58_execution :
  hrun (hd_init ["a"; "b"]) (trace x_good ["a"; "b"]) (Ok (final x_good ["a"; "b"])) ∧
  well_formed (trace x_good ["a"; "b"]) ∧ serials_honest (trace x_good ["a"; "b"]) ∧ one_zone utc (trace x_good ["a"; "b"]).
Proof. split; [apply run_final, x_good_ok|]. split; [apply x_good_wf|]. split; [apply x_good_honest|apply x_good_zone]. Qed.

(** ** C52 *)
Theorem C52_published_is_merge_of_stored : ∀ hosts tr o s s',
  hrun (hd_init hosts) tr (Ok s) → well_formed tr → hop_ok s (HRecalc o) → hstep s (HRecalc o) = Ok s' →
  (∀ p, p ∈ hd_pub s' → pa_time p ∈ hd_need s →
     ∃ l, NoDup (map fst l) ∧ (∀ key d, (key, d) ∈ l ↔ hd_host s !! key = Some d ∧ key_time key = pa_time p) ∧
       pa_ia p = merge_all (pa_time p).1 (map (d_ia ∘ snd) l)) ∧
  (∀ p, p ∈ hd_pub s' → pa_time p ∉ hd_need s → p ∈ hd_pub s).
Proof. exact t_stored. Qed.
Print Assumptions C52_published_is_merge_of_stored.

Theorem C52_stored_is_latest : ∀ hosts tr s key d,
  hrun (hd_init hosts) tr (Ok s) → serials_honest tr →
  hd_host s !! key = Some d ↔ is_latest tr key d.
Proof. exact stored_latest. Qed.
Print Assumptions C52_stored_is_latest.

(** Without any trust in serial numbers: since the data of [key] was last
    purged, an entry replaced the one before unless it had its number. *)
Theorem C52_stored_exactly : ∀ hosts before tr s key, hrun (hd_init hosts) (before ++ tr) (Ok s) →
  (before = [] ∨ ∃ tr1 now, before = tr1 ++ [HPurge now] ∧ expires tr1 key now) →
  (∀ tra now trb, tr = tra ++ HPurge now :: trb → ¬ expires (before ++ tra) key now) →
  match hd_host s !! key with None => entries before tr key = [] | Some d => stays (entries before tr key) d end.
Proof. exact thm_stored_any. Qed.
Print Assumptions C52_stored_exactly.
(** four entries about a minute: the third, the first with serial number 5 since
    that was last another, stays *)
Example C52_stored_example :
  let l := [EResp (xr "a" "i" [xd 60 5 1 0]); EResp (xr "a" "i" [xd 60 4 2 0]); ERecalc; EResp (xr "a" "i" [xd 60 5 3 0]); EResp (xr "a" "i" [xd 60 5 4 0])] in
  let key := ((60, 0%N), "i", "a") in
  succeeds l ["a"] = true ∧ map (λ d, ctr_val (KTop (KEvents "e")) (d_ia d)) (entries [] (trace l ["a"]) key) = [1; 2; 3; 4] ∧
  (λ d, ctr_val (KTop (KEvents "e")) (d_ia d)) <$> hd_host (final l ["a"]) !! key = Some 3.
Proof. vm_compute. done. Qed.

Theorem C52_changed_is_recalculated : ∀ hosts tr1 tr2 o s' key d p,
  hrun (hd_init hosts) ((tr1 ++ tr2) ++ [HRecalc o]) (Ok s') → serials_honest (tr1 ++ tr2) → well_formed (tr1 ++ tr2) →
  Forall (λ op, ¬ is_recalc op) tr2 → is_latest (tr1 ++ tr2) key d → ¬ is_latest tr1 key d →
  p ∈ hd_pub s' → pa_time p = key_time key →
  ∃ l, latest_at (tr1 ++ tr2) (key_time key) l ∧ pa_ia p = merge_all (key_time key).1 (map (d_ia ∘ snd) l).
Proof. exact t_latest. Qed.
Print Assumptions C52_changed_is_recalculated.

Theorem C52_changed_is_published : ∀ hosts tr1 tr2 o s' key d,
  hrun (hd_init hosts) ((tr1 ++ tr2) ++ [HRecalc o]) (Ok s') → serials_honest (tr1 ++ tr2) → well_formed (tr1 ++ tr2) →
  Forall (λ op, ¬ is_recalc op) tr2 → is_latest (tr1 ++ tr2) key d → ¬ is_latest tr1 key d →
  (∃ p, p ∈ hd_pub s' ∧ pa_time p = key_time key) ∨
  (∃ x, conf_dur (tr1 ++ tr2) = Some x ∧ Z.of_nat (length (hd_pub s')) = 7200000000000 `div` x ∧
     ∀ q, q ∈ hd_pub s' → (key_time key).1 ≤ ia_start (pa_ia q)).
Proof. exact t_squeezed. Qed.
Print Assumptions C52_changed_is_published.

Theorem C52_unchanged_is_kept : ∀ hosts tr1 o1 tr2 o s s' p,
  hrun (hd_init hosts) (tr1 ++ HRecalc o1 :: tr2) (Ok s) → well_formed (tr1 ++ HRecalc o1 :: tr2) →
  hop_ok s (HRecalc o) → hstep s (HRecalc o) = Ok s' →
  p ∈ hd_pub s' → (∀ key d, reported tr2 key d → key_time key ≠ pa_time p) → p ∈ hd_pub s.
Proof. exact t_kept. Qed.
Print Assumptions C52_unchanged_is_kept.

Theorem C52_published_was_latest : ∀ hosts tr s p,
  hrun (hd_init hosts) tr (Ok s) → serials_honest tr → well_formed tr → p ∈ hd_pub s →
  ∃ tra o trb l, tr = tra ++ HRecalc o :: trb ∧ latest_at tra (pa_time p) l ∧
    pa_ia p = merge_all (pa_time p).1 (map (d_ia ∘ snd) l).
Proof. exact t_from. Qed.
Print Assumptions C52_published_was_latest.

(** host "a" was polled twice with the same 10 events, "b" first with 5, then
    with 6 *)
Example C52_example : shown (final x_good ["a"; "b"]) = [((60, 0%N), 16); ((120, 0%N), 3)] ∧
  hd_host (final x_good ["a"; "b"]) !! (60, 0%N, "j", "b") = Some (DAgg 0 (xi 60 11 6) false).
Proof. vm_compute. done. Qed.

(** ** C53 *)
Theorem C53_strictly_sorted_refuted : ∃ hosts tr s,
  hrun (hd_init hosts) tr (Ok s) ∧ well_formed tr ∧ serials_honest tr ∧ ¬ increasing (hd_pub s).
Proof. exact cx_sorted. Qed.
Print Assumptions C53_strictly_sorted_refuted.

Theorem C53_strictly_sorted_partial : ∀ hosts tr s loc,
  hrun (hd_init hosts) tr (Ok s) → well_formed tr → one_zone loc tr → increasing (hd_pub s).
Proof. exact t_sorted. Qed.
Print Assumptions C53_strictly_sorted_partial.

(** exactly: unless one instant is published in two locations *)
Theorem C53_exactly_partial : ∀ hosts tr s, hrun (hd_init hosts) tr (Ok s) → well_formed tr →
  (increasing (hd_pub s) ↔ ∀ p q, p ∈ hd_pub s → q ∈ hd_pub s → ia_start (pa_ia p) = ia_start (pa_ia q) → pa_loc p = pa_loc q).
Proof. exact thm_sorted_exactly. Qed.
Print Assumptions C53_exactly_partial.
Example C53_example_zones : map fst (shown (final x_zones ["a"; "b"])) = [(60, 7%N); (60, 0%N)].
Proof. vm_compute. done. Qed.

Theorem C53_sorted_bounded_partial : ∀ hosts tr s,
  hrun (hd_init hosts) tr (Ok s) → well_formed tr →
  StronglySorted (λ p q, ia_start (pa_ia p) ≤ ia_start (pa_ia q)) (hd_pub s) ∧ NoDup (map pa_time (hd_pub s)) ∧
  match conf_dur tr with
  | Some x => Z.of_nat (length (hd_pub s)) ≤ 7200000000000 `div` x
  | None => hd_pub s = []
  end.
Proof. exact t_bounded. Qed.
Print Assumptions C53_sorted_bounded_partial.

Example C53_example : map fst (shown (final x_good ["a"; "b"])) = [(60, 0%N); (120, 0%N)] ∧
  conf_dur (trace x_good ["a"; "b"]) = Some 60000000000.
Proof. vm_compute. done. Qed.

(** ** C54 *)
Theorem C54_repoll_refuted : ∃ hosts r o s s',
  hrun (hd_init hosts) [HResp r 1000 1001; HRecalc o] (Ok s) ∧ usable r ∧
  hstep s (HResp r 1002 1003) = Ok s' ∧ hd_need s = ∅ ∧ hd_need s' ≠ ∅.
Proof. exact cx_repoll. Qed.
Print Assumptions C54_repoll_refuted.

Theorem C54_repoll_after_purge_refuted : ∃ hosts r o now s s',
  hrun (hd_init hosts) [HResp r 1000 1001; HRecalc o; HPurge now] (Ok s) ∧ usable r ∧ listed_once r ∧
  hstep s (HResp r 1002 1003) = Ok s' ∧ hd_need s = ∅ ∧ hd_need s' ≠ ∅.
Proof. exact cx_repoll_purge. Qed.
Print Assumptions C54_repoll_after_purge_refuted.

Theorem C54_repoll_partial : ∀ hosts tr1 r t1 t2 tr2 s r' t1' t2' s',
  hrun (hd_init hosts) (tr1 ++ HResp r t1 t2 :: tr2) (Ok s) → hstep s (HResp r' t1' t2') = Ok s' →
  same_report r r' → listed_once r →
  (∀ op, op ∈ tr2 → ¬ resp_of (r_hp r) op) →
  (∀ tra now trb key, tr2 = tra ++ HPurge now :: trb → reports_at r key ≠ [] → ¬ expires (tr1 ++ HResp r t1 t2 :: tra) key now) →
  hd_host s' = hd_host s ∧ hd_need s' = hd_need s ∧ hd_pub s' = hd_pub s.
Proof. exact repoll_unchanged. Qed.
Print Assumptions C54_repoll_partial.

(** An answer taken again after a recalculation asks for another one exactly
    when it lists an interval with two serial numbers. *)
Theorem C54_exactly_partial : ∀ hosts tr r t1 t2 o s r' t1' t2' s',
  hrun (hd_init hosts) (tr ++ [HResp r t1 t2; HRecalc o]) (Ok s) → counted tr r → same_report r r' →
  hstep s (HResp r' t1' t2') = Ok s' →
  (hd_need s' = ∅ ↔ ∀ key d1 d2, d1 ∈ reports_at r key → d2 ∈ reports_at r key → ia_serial (d_ia d1) = ia_serial (d_ia d2)).
Proof. exact thm_repoll_exactly. Qed.
Print Assumptions C54_exactly_partial.
(** a minute listed with two serial numbers, and listed twice with one *)
Example C54_exactly_example :
  let twice n := xr "a" "i" [xd 60 4 10 0; xd 60 n 5 0] in
  let again n := hstep (final [EResp (twice n); ERecalc] ["a"]) (HResp (twice n) 1002 1003) in
  succeeds [EResp (twice 5); ERecalc] ["a"] = true ∧ succeeds [EResp (twice 4); ERecalc] ["a"] = true ∧
  counted [] (twice 5) ∧ counted [] (twice 4) ∧
  match again 5, again 4 with Ok s5, Ok s4 => bool_decide (hd_need s5 = ∅) = false ∧ bool_decide (hd_need s4 = ∅) = true | _, _ => False end.
Proof. vm_compute. done. Qed.

Example C54_example :
  listed_once (xr "b" "j" [xd 60 11 6 0; xd 120 2 1 0]) ∧
  shown (final (x_good ++ [EResp (xr "b" "j" [xd 60 11 6 0; xd 120 2 1 0]); ERecalc]) ["a"; "b"]) = shown (final x_good ["a"; "b"]) ∧
  shown (final (x_good ++ [EResp (xr "b" "j" [xd 60 12 8 0; xd 120 2 1 0]); ERecalc]) ["a"; "b"]) = [((60, 0%N), 18); ((120, 0%N), 3)].
Proof. split; [unfold listed_once; apply (bool_decide_unpack (NoDup _)); vm_compute; done|]. vm_compute. done. Qed.

(** ** C55 *)
Theorem C55_counts_never_shrink_refuted : ∃ hosts tr1 tr2 s1 s2 p1 p2,
  hrun (hd_init hosts) tr1 (Ok s1) ∧ hrun s1 tr2 (Ok s2) ∧
  well_formed (tr1 ++ tr2) ∧ serials_honest (tr1 ++ tr2) ∧ one_zone utc (tr1 ++ tr2) ∧
  growing (tr1 ++ tr2) (pa_time p1) (KTop (KEvents "e")) ∧
  p1 ∈ hd_pub s1 ∧ p2 ∈ hd_pub s2 ∧ pa_time p1 = pa_time p2 ∧
  ctr_val (KTop (KEvents "e")) (pa_ia p1) = 15 ∧ ctr_val (KTop (KEvents "e")) (pa_ia p2) = 10.
Proof. exact cx_shrinks. Qed.
Print Assumptions C55_counts_never_shrink_refuted.

Theorem C55_published_emptied_refuted : ∃ hosts tr1 tr2 s1 s2 p1 p2,
  hrun (hd_init hosts) tr1 (Ok s1) ∧ hrun s1 tr2 (Ok s2) ∧
  well_formed (tr1 ++ tr2) ∧ serials_honest (tr1 ++ tr2) ∧ one_zone utc (tr1 ++ tr2) ∧
  growing (tr1 ++ tr2) (pa_time p1) (KTop (KEvents "e")) ∧
  p1 ∈ hd_pub s1 ∧ p2 ∈ hd_pub s2 ∧ pa_time p1 = pa_time p2 ∧
  ctr_val (KTop (KEvents "e")) (pa_ia p1) = 15 ∧ ctr_val (KTop (KEvents "e")) (pa_ia p2) = 0.
Proof. exact cx_emptied. Qed.
Print Assumptions C55_published_emptied_refuted.

Theorem C55_counts_never_shrink_partial : ∀ hosts tr1 tr2 s1 s2 p1 p2 c,
  hrun (hd_init hosts) tr1 (Ok s1) → hrun s1 tr2 (Ok s2) →
  serials_honest (tr1 ++ tr2) → well_formed (tr1 ++ tr2) →
  p1 ∈ hd_pub s1 → p2 ∈ hd_pub s2 → pa_time p1 = pa_time p2 →
  never_expires (tr1 ++ tr2) (pa_time p1) → growing (tr1 ++ tr2) (pa_time p1) c →
  sane_reports (tr1 ++ tr2) c → sums_fit (tr1 ++ tr2) (pa_time p1) c →
  ctr_val c (pa_ia p1) ≤ ctr_val c (pa_ia p2).
Proof. exact t_grows. Qed.
Print Assumptions C55_counts_never_shrink_partial.

(** in the run above, 15 events were published for the first interval after
    the first round and 16 after the second *)
Example C55_example : let tr := trace x_good ["a"; "b"] in let c := KTop (KEvents "e") in
  never_expires tr (60, 0%N) ∧ growing tr (60, 0%N) c ∧ sane_reports tr c ∧ sums_fit tr (60, 0%N) c ∧
  shown (final (take 4 x_good) ["a"; "b"]) = [((60, 0%N), 15); ((120, 0%N), 1)] ∧
  shown (final x_good ["a"; "b"]) = [((60, 0%N), 16); ((120, 0%N), 3)].
Proof.
  split; [apply x_good_never|]. split; [apply x_good_growing|]. split; [apply x_good_sane|]. split; [apply x_good_fit|].
  vm_compute. done.
Qed.

(** data may expire too, once everything reported for its interval has been
    merged and nothing more is reported for it *)
Theorem C55_expiring_partial : ∀ hosts tr1 tr2 s1 s2 p1 p2 c,
  hrun (hd_init hosts) tr1 (Ok s1) → hrun s1 tr2 (Ok s2) →
  serials_honest (tr1 ++ tr2) → well_formed (tr1 ++ tr2) →
  p1 ∈ hd_pub s1 → p2 ∈ hd_pub s2 → pa_time p1 = pa_time p2 →
  expires_settled (tr1 ++ tr2) (pa_time p1) → growing (tr1 ++ tr2) (pa_time p1) c →
  sane_reports (tr1 ++ tr2) c → sums_fit (tr1 ++ tr2) (pa_time p1) c →
  ctr_val c (pa_ia p1) ≤ ctr_val c (pa_ia p2).
Proof. exact t_grows_settled. Qed.
Print Assumptions C55_expiring_partial.

(** the run above, then a purge of all its data, then a report for a later
    interval: the 16 events remain published *)
Example C55_expiring_example :
  (expires_settled (trace x_late ["a"; "b"]) (60, 0%N) ∧ ¬ never_expires (trace x_late ["a"; "b"]) (60, 0%N)) ∧
  shown (final x_good ["a"; "b"]) = [((60, 0%N), 16); ((120, 0%N), 3)] ∧
  shown (final x_late ["a"; "b"]) = [((60, 0%N), 16); ((120, 0%N), 3); ((6 * minute, 0%N), 2)] ∧
  map fst (map_to_list (hd_host (final x_late ["a"; "b"]))) = [(6 * minute, 0%N, "i", "a")].
Proof. split; [exact x_late_settled|exact x_late_shown]. Qed.

(** ** C56 *)
Theorem C56_no_crash_refuted : ∃ r1 r2 r3 r4 o2 o4 w1 w2 w3 w4,
  usable r1 ∧ r_dur r1 = 0 ∧ r_aggs r1 = [] ∧ hrun (hd_init ["a"]) [HResp r1 1000 1001] (Crash w1) ∧
  usable r2 ∧ r_dur r2 = -1 ∧ hrun (hd_init ["a"]) [HResp r2 1000 1001; HRecalc o2] (Crash w2) ∧
  usable r3 ∧ r_dur r3 = 60000000000 ∧ r_aggs r3 = [None] ∧ hrun (hd_init ["a"]) [HResp r3 1000 1001] (Crash w3) ∧
  usable r4 ∧ r_dur r4 = 60000000000 ∧ (∃ d, r_aggs r4 = [Some d]) ∧
    hrun (hd_init ["a"]) [HResp r4 1000 1001; HRecalc o4] (Crash w4).
Proof. exact cx_crash. Qed.
Print Assumptions C56_no_crash_refuted.

Theorem C56_no_crash_partial : ∀ hosts tr w, well_formed tr → ¬ hrun (hd_init hosts) tr (Crash w).
Proof. exact never_crashes. Qed.
Print Assumptions C56_no_crash_partial.

Theorem C56_every_operation_possible_partial : ∀ hosts tr s op,
  hrun (hd_init hosts) tr (Ok s) → well_formed (tr ++ [op]) → hop_ok s op → ∃ s', hstep s op = Ok s'.
Proof. exact step_total. Qed.
Print Assumptions C56_every_operation_possible_partial.

(** exactly what kills it ([deadly], SHealthd.v): a null in the list or a zero
    first interval length at once; a negative first interval length of at most
    two hours at the next purge or at the next recalculation with something to
    do; a null entry in stored data at the recalculation of its interval *)
Theorem C56_crashes_exactly_partial : ∀ hosts tr s op,
  hrun (hd_init hosts) tr (Ok s) → hop_ok s op → ((∃ w, hstep s op = Crash w) ↔ deadly tr s op).
Proof. exact crashes_exactly. Qed.
Print Assumptions C56_crashes_exactly_partial.

(** in terms of the responses: the most recent data of some host for some
    interval came since the last recalculation and has a null entry *)
Theorem C56_null_entry_kills_refuted : ∀ hosts tr1 tr2 s key d o,
  hrun (hd_init hosts) (tr1 ++ tr2) (Ok s) → serials_honest (tr1 ++ tr2) →
  Forall (λ op, ¬ is_recalc op) tr2 → is_latest (tr1 ++ tr2) key d → ¬ is_latest tr1 key d → d_null d = true →
  hop_ok s (HRecalc o) → ∃ w, hstep s (HRecalc o) = Crash w.
Proof. exact null_kills. Qed.
Print Assumptions C56_null_entry_kills_refuted.

(** a length of minus two hours kills, one a nanosecond further down does not *)
Example C56_example_exactly :
  let r x := EResp (Resp "a" 7 None 200 5 "i" x [xd 60 4 10 0]) in
  map (λ l, succeeds l ["a"]) [[r (-7200000000000)]; [r (-7200000000000); ERecalc]; [r (-7200000000000); EPurge 100];
    [r (-7200000000001); ERecalc; EPurge 100]; [r 0]; [EResp (Resp "a" 7 None 500 5 "i" 0 [None])];
    [EResp x_nullentry]; [EResp x_nullentry; EPurge 100]; [EResp x_nullentry; EPurge 1000000000000; ERecalc]; [EResp x_nullentry; ERecalc]] =
  [true; false; false; true; false; true; true; true; true; false].
Proof. vm_compute. reflexivity. Qed.

(** a run with an unusable response, one with another interval length, and one
    from an unknown host *)
Example C56_example : succeeds [EResp (Resp "a" 7 (Some "timeout") 0 5 "" 0 []); EResp (xr "a" "i" [xd 60 4 10 0]);
    EResp (Resp "b" 7 None 200 5 "j" 30 [xd 60 1 1 0]); EResp (xr "z" "k" [xd 60 1 3 0]); ERecalc; EPurge 100] ["a"; "b"] = true ∧
  shown (final [EResp (Resp "a" 7 (Some "timeout") 0 5 "" 0 []); EResp (xr "a" "i" [xd 60 4 10 0]);
    EResp (Resp "b" 7 None 200 5 "j" 30 [xd 60 1 1 0]); EResp (xr "z" "k" [xd 60 1 3 0]); ERecalc; EPurge 100] ["a"; "b"]) = [((60, 0%N), 13)].
Proof. vm_compute. done. Qed.

(** ** C57 *)
Theorem C57_one_interval_refuted : ∃ hosts tr s p q,
  hrun (hd_init hosts) tr (Ok s) ∧ well_formed tr ∧ serials_honest tr ∧
  p ∈ hd_pub s ∧ q ∈ hd_pub s ∧ ia_start (pa_ia p) = ia_start (pa_ia q) ∧
  ctr_val (KTop (KEvents "e")) (pa_ia p) = 5 ∧ ctr_val (KTop (KEvents "e")) (pa_ia q) = 10.
Proof. exact cx_one_instant. Qed.
Print Assumptions C57_one_interval_refuted.

(** polling one host twice publishes its one interval twice *)
Theorem C57_duplicated_data_refuted : ∃ hosts r1 r2 o s p q,
  hrun (hd_init hosts) [HResp r1 1000 1001; HResp r2 1000 1001; HRecalc o] (Ok s) ∧
  r_hp r1 = r_hp r2 ∧ r_inst r1 = r_inst r2 ∧ usable r1 ∧ usable r2 ∧
  map (fmap d_ia) (r_aggs r1) = map (fmap d_ia) (r_aggs r2) ∧ length (r_aggs r1) = 1%nat ∧
  hd_pub s = [p; q] ∧ ia_start (pa_ia p) = ia_start (pa_ia q) ∧
  ctr_val (KTop (KEvents "e")) (pa_ia p) = 10 ∧ ctr_val (KTop (KEvents "e")) (pa_ia q) = 10.
Proof. exact cx_doubled. Qed.
Print Assumptions C57_duplicated_data_refuted.

Theorem C57_one_interval_partial : ∀ hosts tr1 tr2 o s' key d loc,
  hrun (hd_init hosts) ((tr1 ++ tr2) ++ [HRecalc o]) (Ok s') → serials_honest (tr1 ++ tr2) → well_formed (tr1 ++ tr2) →
  one_zone loc (tr1 ++ tr2) →
  Forall (λ op, ¬ is_recalc op) tr2 → is_latest (tr1 ++ tr2) key d → ¬ is_latest tr1 key d →
  (∀ p q, p ∈ hd_pub s' → q ∈ hd_pub s' → ia_start (pa_ia p) = ia_start (pa_ia q) → p = q) ∧
  (∀ p, p ∈ hd_pub s' → ia_start (pa_ia p) = (key_time key).1 →
     ∃ l, latest_instant (tr1 ++ tr2) (key_time key).1 l ∧ pa_ia p = merge_all (key_time key).1 (map (d_ia ∘ snd) l)).
Proof. exact t_instant. Qed.
Print Assumptions C57_one_interval_partial.

Example C57_example : shown (final x_good ["a"; "b"]) = [((60, 0%N), 10 + 6); ((120, 0%N), 2 + 1)].
Proof. vm_compute. done. Qed.

(** ** C58 *)
Theorem C58_statuses_current : ∀ hosts tr s l,
  hrun (hd_init hosts) tr (Ok s) → clock_set tr → l ≡ₚ map_to_list (hd_status s) →
  NoDup (map hs_hp (safe_hosts l)) ∧
  (∀ hp, hp ∈ map hs_hp (safe_hosts l) ↔ hp ∈ hosts) ∧
  (∀ hs, hs ∈ safe_hosts l → status_current (hs_hp hs) tr hs).
Proof. exact statuses_listed. Qed.
Print Assumptions C58_statuses_current.

(** "a" succeeds, fails, succeeds; "b" only fails; "c" never answers *)
Example C58_example :
  let s := match hstep (hd_init ["a"; "b"; "c"; "a"]) (HResp (xr "a" "i" []) 10 11) with Ok s => s | _ => hd_init [] end in
  let s := match hstep s (HResp (Resp "b" 20 None 500 6 "" 0 []) 21 22) with Ok s => s | _ => s end in
  let s := match hstep s (HResp (Resp "a" 30 (Some "timeout") 0 8 "" 0 []) 31 32) with Ok s => s | _ => s end in
  let s := match hstep s (HResp (Resp "a" 40 None 200 9 "i2" minute []) 41 42) with Ok s => s | _ => s end in
  hd_status s !! "a" = Some (HStatus "a" 40 "i2" minute "" 9 200 10 42) ∧
  hd_status s !! "b" = Some (HStatus "b" 20 "" 0 "" 6 500 0 0) ∧
  hd_status s !! "c" = Some (hstatus0 "c") ∧ length (map_to_list (hd_status s)) = 3%nat.
Proof. vm_compute. done. Qed.
