(** * The whole way: processes that emit, a healthd that polls them

    Executions of several instrumented processes and one healthd.  Each process
    has a polling sink and serves /health from it; healthd takes the answers,
    purges and recalculates.  The relation below puts the models of the parts
    together (MAgg, MWire, MRequest, MHealthd); what should come out of it is
    said in terms of the events alone. *)
From Verif Require Export SHealthd SWire MRequest.

(** where healthd finds a process, its identifier, how long its sink keeps
    intervals, and the zone its times are written with.  A process that is
    restarted is another process. *)
Record proc := Proc { p_hp : string; p_inst : string; p_retain : Z; p_off : Z → Z }.

(** What happens, in order.  [SProc i t o]: the aggregator of process [i] does
    [o] at its time [t].  [SRecv i k]: healthd takes the answer that process
    [i] gave by its [k]-th operation, which was a read: answers may be taken
    late, in another order, or never.  [SFail]: a poll that failed.  [SPurge]
    and [SRecalc]: healthd's own (healthd.go:125-195). *)
Inductive sev :=
  | SProc (i : nat) (t : Z) (o : aop)
  | SRecv (i k : nat)
  | SFail
  | SPurge (now : hkey → Z)
  | SRecalc (o : rorder).

(** what the aggregator of process [i] has done *)
Definition hist (i : nat) (tr : list sev) : list (Z * aop) :=
  omap (λ e, match e with SProc j t o => if decide (i = j) then Some (t, o) else None | _ => None end) tr.

(** [sys ff d P zone tr ops]: [tr] is an execution of processes [P] with
    interval length [d], during which healthd does [ops].  An answer is what
    ServeHTTP writes for what GetMetrics returned then
    (json_polling_sink_http.go:20-39), read and decoded by poll
    (poll.go:23-70).  healthd decodes the zones of all the processes to one
    location. *)
Inductive sys (ff : f64 → string) (d : Z) (P : nat → proc) (zone : N) : list sev → list hop → Prop :=
  | sys_nil : sys ff d P zone [] []
  | sys_proc tr ops i t o : sys ff d P zone tr ops → sys ff d P zone (tr ++ [SProc i t o]) ops
  | sys_recv tr ops i k t out msg code body loc nanos x part w s ts stack w' r t1 t2 :
      sys ff d P zone tr ops → hist i tr !! k = Some (t, OpRead) →
      get_metrics d (p_retain (P i)) (take k (hist i tr)) t = Ok out →
      serve_health ff (p_off (P i)) msg "/health" (p_inst (P i)) d out = (code, body) →
      (∀ n u, loc n (p_off (P i) u) = zone) →
      poll w s (p_hp (P i)) ts (fetch_of loc code nanos x part body) stack = Ok (w', r) →
      sys ff d P zone (tr ++ [SRecv i k]) (ops ++ [HResp r t1 t2])
  | sys_fail tr ops r t1 t2 : sys ff d P zone tr ops → ¬ usable r → sys ff d P zone (tr ++ [SFail]) (ops ++ [HResp r t1 t2])
  | sys_purge tr ops now : sys ff d P zone tr ops → sys ff d P zone (tr ++ [SPurge now]) (ops ++ [HPurge now])
  | sys_recalc tr ops o : sys ff d P zone tr ops → sys ff d P zone (tr ++ [SRecalc o]) (ops ++ [HRecalc o]).

(** what is asked of the processes: told apart by identifier and address, a
    clock that does not go back, emissions and times that can be written, and
    fewer than 2^64 emissions in an interval *)
Record procs_ok (d : Z) (P : nat → proc) (tr : list sev) : Prop := {
  po_apart : ∀ i j, p_inst (P i) = p_inst (P j) → p_hp (P i) = p_hp (P j) → i = j;
  po_name : ∀ i, good_name (p_inst (P i));
  po_retain : ∀ i, d ≤ p_retain (P i);
  po_clock : ∀ i, clock_monotone (hist i tr);
  po_hist : ∀ i, history_ok good_name (p_off (P i)) d (hist i tr);
  po_few : ∀ i s, Z.of_nat (length (cmds_in d s (hist i tr))) < 2 ^ 64 }.

(** the intervals listed by the answer that ends history [h] *)
Definition listed (d retain : Z) (h : list (Z * aop)) : list Z :=
  lastn (Z.to_nat (retain `div` d)) (squash (map (slot d) (map fst h))).

(** of the answers taken from process [i], the last to list interval [s] was
    given by its [k]-th operation *)
Definition heard (d : Z) (P : nat → proc) (tr : list sev) (i : nat) (s : Z) (k : nat) : Prop :=
  let lists k := s ∈ listed d (p_retain (P i)) (take (S k) (hist i tr)) in
  ∃ tr1 tr2, tr = tr1 ++ SRecv i k :: tr2 ∧ lists k ∧ ∀ k', SRecv i k' ∈ tr2 → ¬ lists k'.

(** no purge came more than five intervals after [s] *)
Definition kept (d s : Z) (tr : list sev) : Prop :=
  ∀ now key, SPurge now ∈ tr → (key_time key).1 = s → since (now key) s ≤ w64 (d * 5).

(** what each counter should be for the emissions [l] *)
Definition m_tally (c : mctr) (l : list cmd) : Z :=
  match c with
  | KEvents e => Z.of_nat (length (events_of e l))
  | KErrs e => Z.of_nat (length (errors_of e l))
  | KTimerCount e => Z.of_nat (length (timings_of e l))
  | KTimerSum e => zsum (timings_of e l)
  end.
Definition j_tally (c : jctr) (l : list cmd) : Z :=
  match c with
  | KSuccess => Z.of_nat (length (completions_with Success l))
  | KVError => Z.of_nat (length (completions_with ValidationError l))
  | KPanic => Z.of_nat (length (completions_with Panic l))
  | KError => Z.of_nat (length (completions_with Error l))
  | KJunk => Z.of_nat (length (completions_with Junk l))
  | KCount => Z.of_nat (length (completions_of l))
  | KSum => zsum (map snd (completions_of l))
  | KIn c => m_tally c l
  end.
Definition tally (c : ctr) (l : list cmd) : Z :=
  match c with KTop c => m_tally c l | KJob j c => j_tally c (of_job j l) end.

(** the answers of each process are taken in the order it gave them *)
Definition in_order (tr : list sev) : Prop :=
  ∀ i tr1 k tr2 k', tr = tr1 ++ SRecv i k :: tr2 → SRecv i k' ∈ tr2 → (k ≤ k')%nat.
(** counters that count, as opposed to those that add times *)
Definition counting (c : ctr) : Prop :=
  match c with
  | KTop (KTimerSum _) | KJob _ KSum | KJob _ (KIn (KTimerSum _)) => False
  | _ => True
  end.
(** fewer than 2^63 emissions in the interval, by all the processes together *)
Definition few_in_all (d s : Z) (tr : list sev) : Prop :=
  ∀ L, NoDup L → zsum (map (λ i, Z.of_nat (length (cmds_in d s (hist i tr)))) L) < 2 ^ 63.
