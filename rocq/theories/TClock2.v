(** * Property theorems: sums of squares under any clock (C136), healthd and a
      process whose clock steps back (C137)

    The answers carry sums of squares; that these stay finite is a matter of
    real numbers, hence the axioms below. *)
From Verif Require Import SApi SFloat2 SSystem SClock PWireEx PHealthdEx PSystemEx PClock2 PClock2Ex.

(** ** C136 *)
(** The sums of squares are, up to rounding, those of the durations of the visit
    shown; [good_ss] as in C12. *)
Theorem C136_sums_of_squares : ∀ d retain h t vs out, 0 < d → d ≤ retain → visits d (h ++ [(t, OpRead)]) vs →
  get_metrics d retain h t = Ok out → host_int64 h →
  Forall2 (λ v i, let cmds := hist_cmds v.2 in
    (∀ e tm, am_timers (ia_maps i) !! e = Some tm → let l := timings_of e cmds in good_ss (3 + length l) (t_ss tm) l) ∧
    (∀ j ja, ia_jobs i !! j = Some ja →
       (∀ e tm, am_timers (j_maps ja) !! e = Some tm → let l := timings_of e (of_job j cmds) in good_ss (3 + length l) (t_ss tm) l) ∧
       (let l := map snd (completions_of (of_job j cmds)) in good_ss (3 + length l) (t_ss (j_timer ja)) l)))
    (lastn (Z.to_nat (retain `div` d)) vs) out.
Proof. exact thm_clock_ss. Qed.
Print Assumptions C136_sums_of_squares.
(** 3 and 4 on two visits to one minute: 9 and 16, not 25 *)
Example C136_example_squares :
  let h := [(10, OpCmd (CTiming "j" "t" 3)); (70, OpTick); (20, OpCmd (CTiming "j" "t" 4))] in
  match get_metrics 60 300 h 21 with
  | Ok out => map (λ i, (ia_start i, t_ss <$> am_timers (ia_maps i) !! "t")) out = [(0, Some (fofZ 9)); (60, None); (0, Some (fofZ 16))]
  | Crash _ => False end.
Proof. vm_compute. done. Qed.

(** ** C137 *)
(** A process emits two events "e" in a minute, between them its clock was in
    the next minute; healthd takes the answer it gives after both.  The
    published minute has one. *)
Theorem C137_stepped_back_refuted : ∃ tr ops st p k t, let s := y_start in
  sys go_float minute y_proc 0 tr ops ∧ hrun (hd_init ["h:1"]) ops (Ok st) ∧
  history_ok good_name (p_off (y_proc 0)) minute (hist 0 tr) ∧ kept minute s tr ∧
  hist 0 tr !! k = Some (t, OpRead) ∧ s + minute ≤ t ∧ length (hist 0 tr) = S k ∧ SRecv 0 k ∈ tr ∧
  p ∈ hd_pub st ∧ pa_time p = (s, 0%N) ∧
  tally (KTop (KEvents "e")) (cmds_in minute s (hist 0 tr)) = 2 ∧ ctr_val (KTop (KEvents "e")) (pa_ia p) = 1.
Proof. exact cx_stepped_back. Qed.
Print Assumptions C137_stepped_back_refuted.

(** What a process emits in an interval is what it emits during its visits to
    it. *)
Theorem C137_emitted_during_visits : ∀ d h vs s,
  0 < d → (∃ u, s = slot d u) → visits d h vs → cmds_in d s h = concat (emissions_at s vs).
Proof. exact thm_visits_emitted. Qed.
Print Assumptions C137_emitted_during_visits.

(** From an answer about an interval it has nothing on, healthd takes the
    emissions of one visit: in the order of the answer, each replaces the one
    before unless it has as many.
    missing: the other visits *)
Theorem C137_one_visit_partial : ∀ ff off inst hp d retain zone, float_codec ff → good_name inst → in_int64 d → 0 < d → d ≤ retain →
  ∀ h t vs out msg code body loc nanos x part w s ts stack w' r hosts ops t1 t2 st0 st i,
  history_ok good_name off d (h ++ [(t, OpRead)]) → visits d (h ++ [(t, OpRead)]) vs → get_metrics d retain h t = Ok out →
  serve_health ff off msg "/health" inst d out = (code, body) → (∀ n u, loc n (off u) = zone) →
  poll w s hp ts (fetch_of loc code nanos x part body) stack = Ok (w', r) →
  hrun (hd_init hosts) ops (Ok st0) → counted ops r → hd_host st0 !! ((i, zone), inst, hp) = None →
  hrun (hd_init hosts) (ops ++ [HResp r t1 t2]) (Ok st) →
  let gs := emissions_at i (lastn (Z.to_nat (retain `div` d)) vs) in
  match hd_host st !! ((i, zone), inst, hp) with
  | None => gs = []
  | Some y => ∃ g, left_of gs g ∧ ∀ c, ctr_val c (d_ia y) = w64 (tally c g)
  end.
Proof. exact thm_one_visit. Qed.
Print Assumptions C137_one_visit_partial.

(** Hence all of them when no interval was visited twice, as with a clock that
    never steps back. *)
Theorem C137_visited_once_partial : ∀ ff off inst hp d retain zone h t vs out msg code body loc nanos x part w s ts stack w' r hosts ops t1 t2 st0 st i,
  float_codec ff → good_name inst → in_int64 d → 0 < d → d ≤ retain →
  history_ok good_name off d (h ++ [(t, OpRead)]) → visits d (h ++ [(t, OpRead)]) vs → get_metrics d retain h t = Ok out →
  serve_health ff off msg "/health" inst d out = (code, body) → (∀ n u, loc n (off u) = zone) →
  poll w s hp ts (fetch_of loc code nanos x part body) stack = Ok (w', r) →
  hrun (hd_init hosts) ops (Ok st0) → counted ops r → hd_host st0 !! ((i, zone), inst, hp) = None →
  hrun (hd_init hosts) (ops ++ [HResp r t1 t2]) (Ok st) →
  NoDup (map fst vs) → i ∈ map fst (lastn (Z.to_nat (retain `div` d)) vs) →
  ∃ y, hd_host st !! ((i, zone), inst, hp) = Some y ∧ ∀ c, ctr_val c (d_ia y) = w64 (tally c (cmds_in d i h)).
Proof. exact thm_visited_once. Qed.
Print Assumptions C137_visited_once_partial.

(** the answer of the refutation: the second visit is left; were it as long as
    the first, that would be *)
Example C137_example :
  visits minute (b_h b1 b2 ++ [(clock + minute, OpRead)]) (b_vs b1 b2) ∧
  (get_metrics minute (60 * minute) (b_h b1 b2) (clock + minute) = Ok (b_out b1 b2) ∧
   (∃ w', b_poll b1 b2 = Ok (w', b_resp b1 b2)) ∧ counted [] (b_resp b1 b2) ∧
   hrun (hd_init ["h:1"]) [HResp (b_resp b1 b2) 1000 1001] (Ok (b_state b1 b2))) ∧
  left_of (emissions_at y_start (b_vs b1 b2)) b2 ∧ left_of (emissions_at y_start (b_vs b1 b3)) b1.
Proof. split; [exact b12_visits|]. split; [exact b12_asked|exact b_left]. Qed.
(** then the event "f" of the second visit is never seen *)
Example C137_example_same_number :
  sys go_float minute y_proc 0 (b_tr b1 b3) (b_ops b1 b3) ∧ hrun (hd_init ["h:1"]) (b_ops b1 b3) (Ok (b_end b1 b3)) ∧
  b_names (b_end b1 b3) = [((y_start, 0%N), (1, 0)); ((y_start + minute, 0%N), (0, 0))].
Proof. split; [exact b13_sys|]. split; [exact b13_run|exact b13_shown]. Qed.
