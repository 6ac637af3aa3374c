(** * Memory accesses of health.go, goroutine by goroutine

    The calls of health.go cut into steps, each with the shared memory it reads
    or writes: the Sinks and KeyValues of streams and jobs, the maps, the
    Emitted flags of errors and the frames of their stacks.  Of a map only
    matters whether it is empty. *)
From stdpp Require Export functions.
From Verif Require Export Base.

(** whose KeyValues: a job's or a stream's *)
Inductive own := OJob (j : nat) | OStream (s : nat).
(** maps: the KeyValues of a job or stream, a map [c] of a caller, a map just
    made by mergedKeyValues *)
Inductive mref := MOf (o : own) | MInst (c : nat) | MNew.
Inductive loc := LField (o : own) | LMap (m : mref) | LSinks (s : nat) | LFlag (e : nat) | LFrames (e : nat).
Inductive acc := Rd (l : loc) | Wr (l : loc).
Global Instance own_dec : EqDecision own. Proof. solve_decision. Defined.
Global Instance mref_dec : EqDecision mref. Proof. solve_decision. Defined.
Global Instance loc_dec : EqDecision loc. Proof. solve_decision. Defined.

(** sinks: those that read the key/values within Emit* (writer_sink.go,
    json_writer_sink.go); those that look at neither them nor the error
    (statsd_sink.go:135-153, sinks/librato/sink.go:118-136); Bugsnag sinks, which
    queue both for their goroutine (sinks/bugsnag/sink.go:45-56); polling sinks,
    which queue the error for theirs (json_polling_sink.go:60-62) *)
Inductive skind := SkSync | SkQueue | SkBugsnag (b : nat) | SkPoll (p : nat).
Global Instance skind_dec : EqDecision skind. Proof. solve_decision. Defined.

(** an emission by job [em_job], with the caller's map [em_inst] if any
    (Event, Timing, ... or EventKv, TimingKv, ...), of the error object
    [em_err] after wrapErr if it is an error that is not muted *)
Record em := Em { em_job : nat; em_inst : option nat; em_err : option nat }.
Inductive call :=
  | CKeyValue (o : own)            (* Stream.KeyValue, Job.KeyValue *)
  | CInst (c : nat)                (* the caller writes to its own map *)
  | CAddSink (s : nat) (k : skind)
  | CEmit (x : em).

Global Instance em_dec : EqDecision em. Proof. solve_decision. Defined.
Global Instance call_dec : EqDecision call. Proof. solve_decision. Defined.

(** where a goroutine is *)
Inductive ph :=
  | Idle
  | KvField (o : own) | KvMake (o : own) | KvPut (o : own)
  | InstPut (c : nat)
  | AddRead (s : nat) (k : skind) | AddWrite (s : nat) (k : skind) (old : list skind)
  | EmJob (x : em) | EmJobLen (x : em)
  | EmStr (x : em) (jn : bool) | EmStrLen (x : em) (jn : bool)
  | EmInst (x : em) (jn sn : bool)
  | EmCopy (x : em) (ms : list mref)
  | EmSinks (x : em) (m : option mref)
  | EmAt (x : em) (m : option mref) (ks : list skind)
  | EmSend (x : em) (m : option mref) (b : nat) (ks : list skind)
  | EmMark (x : em).

(** [sh_made]: KeyValues that are not nil; [sh_full]: maps that are not empty;
    [sh_framed]: errors whose stack's frames are resolved; [sh_polls]: errors
    queued in polling sinks (without the limit of the channel: there are more
    executions than the code has) *)
Record shared := Shared {
  sh_made : own → bool; sh_full : mref → bool; sh_sinks : nat → list skind; sh_flag : nat → bool;
  sh_queue : nat → list (nat * option mref); sh_framed : nat → bool; sh_polls : nat → list nat }.
Definition set_made (w : shared) (o : own) := Shared (<[o := true]> (sh_made w)) (sh_full w) (sh_sinks w) (sh_flag w) (sh_queue w) (sh_framed w) (sh_polls w).
Definition set_full (w : shared) (m : mref) := Shared (sh_made w) (<[m := true]> (sh_full w)) (sh_sinks w) (sh_flag w) (sh_queue w) (sh_framed w) (sh_polls w).
Definition set_sinks (w : shared) (s : nat) l := Shared (sh_made w) (sh_full w) (<[s := l]> (sh_sinks w)) (sh_flag w) (sh_queue w) (sh_framed w) (sh_polls w).
Definition set_flag (w : shared) (e : nat) := Shared (sh_made w) (sh_full w) (sh_sinks w) (<[e := true]> (sh_flag w)) (sh_queue w) (sh_framed w) (sh_polls w).
Definition set_queue (w : shared) (b : nat) q := Shared (sh_made w) (sh_full w) (sh_sinks w) (sh_flag w) (<[b := q]> (sh_queue w)) (sh_framed w) (sh_polls w).
Definition set_framed (w : shared) (e : nat) := Shared (sh_made w) (sh_full w) (sh_sinks w) (sh_flag w) (sh_queue w) (<[e := true]> (sh_framed w)) (sh_polls w).
Definition set_polls (w : shared) (p : nat) q := Shared (sh_made w) (sh_full w) (sh_sinks w) (sh_flag w) (sh_queue w) (sh_framed w) (<[p := q]> (sh_polls w)).

(** sinks/bugsnag/sink.go:24 *)
Definition bugsnag_queue : nat := 25.

(** what happens that can be noticed *)
Inductive rlab := LBegin (g : nat) (c : call) | LSend (b e : nat) | LReturn (g : nat) (c : call).
Global Instance rlab_dec : EqDecision rlab. Proof. solve_decision. Defined.

Section calls.
  (** the stream of each job *)
  Context (sof : nat → nat).

  (** the accesses of the next step *)
  Definition accs (p : ph) : list acc :=
    match p with
    | Idle => []
    | KvField o => [Rd (LField o)]                                    (* health.go:80, 96 *)
    | KvMake o => [Wr (LField o)]                                     (* health.go:81, 97 *)
    | KvPut o => [Rd (LField o); Wr (LMap (MOf o))]                   (* health.go:83, 99 *)
    | InstPut c => [Wr (LMap (MInst c))]
    | AddRead s _ => [Rd (LSinks s)]                                  (* health.go:75 *)
    | AddWrite s _ _ => [Wr (LSinks s)]
    | EmJob x => [Rd (LField (OJob (em_job x)))]                      (* health.go:189 *)
    | EmJobLen x => [Rd (LField (OJob (em_job x))); Rd (LMap (MOf (OJob (em_job x))))]
    | EmStr x _ => [Rd (LField (OStream (sof (em_job x))))]           (* health.go:193 *)
    | EmStrLen x _ => [Rd (LField (OStream (sof (em_job x)))); Rd (LMap (MOf (OStream (sof (em_job x)))))]
    | EmInst x _ _ => match em_inst x with Some c => [Rd (LMap (MInst c))] | None => [] end  (* health.go:197 *)
    | EmCopy x (m :: _) => match m with MOf o => [Rd (LField o); Rd (LMap m)] | _ => [Rd (LMap m)] end  (* health.go:204-212 *)
    | EmCopy x [] => []
    | EmSinks x _ => [Rd (LSinks (sof (em_job x)))]                   (* health.go:105 *)
    | EmAt x m (SkSync :: _) => match m with Some m => [Rd (LMap m)] | None => [] end
    | EmAt x m (SkBugsnag _ :: _) => match em_err x with Some e => [Rd (LFlag e)] | None => [] end
    | EmAt _ _ _ => []
    | EmSend _ _ _ _ => []
    | EmMark x => match em_err x with Some e => [Wr (LFlag e)] | None => [] end  (* health.go:123-125 *)
    end.

  Definition begins (c : call) : ph :=
    match c with
    | CKeyValue o => KvField o | CInst c => InstPut c | CAddSink s k => AddRead s k | CEmit x => EmJob x
    end.
  (** health.go:186-213: the maps to copy, or the one to use *)
  Definition merged (x : em) (jn sn cn : bool) : ph :=
    let ms := (if sn then [MOf (OStream (sof (em_job x)))] else []) ++ (if jn then [MOf (OJob (em_job x))] else []) ++
              match em_inst x with Some c => if cn then [MInst c] else [] | None => [] end in
    match ms with
    | [] => EmSinks x None
    | [m] => EmSinks x (Some m)
    | _ => EmCopy x ms
    end.

  (** one step of goroutine [g] at [p] with calls [cs] to come; None: it waits
      or has ended *)
  Definition gstep (g : nat) (w : shared) (p : ph) (cs : list call) : option (shared * ph * list call * list rlab) :=
    match p with
    | Idle => match cs with c :: cs => Some (w, begins c, cs, [LBegin g c]) | [] => None end
    | KvField o => Some (w, if sh_made w o then KvPut o else KvMake o, cs, [])
    | KvMake o => Some (set_made w o, KvPut o, cs, [])
    | KvPut o => Some (set_full w (MOf o), Idle, cs, [LReturn g (CKeyValue o)])
    | InstPut c => Some (set_full w (MInst c), Idle, cs, [LReturn g (CInst c)])
    | AddRead s k => Some (w, AddWrite s k (sh_sinks w s), cs, [])
    | AddWrite s k old => Some (set_sinks w s (old ++ [k]), Idle, cs, [LReturn g (CAddSink s k)])
    | EmJob x => Some (w, if sh_made w (OJob (em_job x)) then EmJobLen x else EmStr x false, cs, [])
    | EmJobLen x => Some (w, EmStr x (sh_full w (MOf (OJob (em_job x)))), cs, [])
    | EmStr x jn => Some (w, if sh_made w (OStream (sof (em_job x))) then EmStrLen x jn else EmInst x jn false, cs, [])
    | EmStrLen x jn => Some (w, EmInst x jn (sh_full w (MOf (OStream (sof (em_job x))))), cs, [])
    | EmInst x jn sn =>
        Some (w, merged x jn sn (match em_inst x with Some c => sh_full w (MInst c) | None => false end), cs, [])
    | EmCopy x (_ :: ms) => Some (w, EmCopy x ms, cs, [])
    | EmCopy x [] => Some (w, EmSinks x (Some MNew), cs, [])
    | EmSinks x m => Some (w, EmAt x m (sh_sinks w (sof (em_job x))), cs, [])
    | EmAt x m [] => Some (w, EmMark x, cs, [])
    | EmAt x m (SkBugsnag b :: ks) =>
        Some (w, match em_err x with Some e => if sh_flag w e then EmAt x m ks else EmSend x m b ks | None => EmAt x m ks end, cs, [])
    | EmAt x m (SkPoll p :: ks) =>
        Some (match em_err x with Some e => set_polls w p (sh_polls w p ++ [e]) | None => w end, EmAt x m ks, cs, [])
    | EmAt x m (_ :: ks) => Some (w, EmAt x m ks, cs, [])
    | EmSend x m b ks =>
        match em_err x with
        | Some e =>
            if decide (length (sh_queue w b) < bugsnag_queue)%nat
            then Some (set_queue w b (sh_queue w b ++ [(e, m)]), EmAt x m ks, cs, [LSend b e]) else None
        | None => None
        end
    | EmMark x => Some (match em_err x with Some e => set_flag w e | None => w end, Idle, cs, [LReturn g (CEmit x)])
    end.

  (** the goroutines, and the loops of the Bugsnag sinks
      (sinks/bugsnag/sink.go:74-89, api.go:126-160): [Some (e, m)] while
      notifying [e] with the key/values [m]; and those of the polling sinks
      (aggregator.go:89-97): the errors counted, and the one being counted *)
  Record rstate := RState {
    r_sh : shared; r_gs : list (ph * list call); r_bs : nat → option (nat * option mref);
    r_seen : nat → list nat; r_now : nat → option nat }.
  Inductive racs := AG (g : nat) | ATake (b : nat) | ANotified (b : nat) | APoll (p : nat) | ACounted (p : nat).
  Definition rstep (s : rstate) (a : racs) : option (rstate * list rlab) :=
    match a with
    | AG g =>
        '(p, cs) ← r_gs s !! g; '(w, p, cs, l) ← gstep g (r_sh s) p cs;
        Some (RState w (<[g := (p, cs)]> (r_gs s)) (r_bs s) (r_seen s) (r_now s), l)
    | ATake b =>
        match r_bs s b, sh_queue (r_sh s) b with
        | None, x :: q => Some (RState (set_queue (r_sh s) b q) (r_gs s) (<[b := Some x]> (r_bs s)) (r_seen s) (r_now s), [])
        | _, _ => None
        end
    | ANotified b =>
        match r_bs s b with
        | Some (e, _) => Some (RState (set_framed (r_sh s) e) (r_gs s) (<[b := None]> (r_bs s)) (r_seen s) (r_now s), [])
        | None => None
        end
    | APoll p =>
        match r_now s p, sh_polls (r_sh s) p with
        | None, e :: q => Some (RState (set_polls (r_sh s) p q) (r_gs s) (r_bs s) (r_seen s) (<[p := Some e]> (r_now s)), [])
        | _, _ => None
        end
    | ACounted p =>
        match r_now s p with
        | Some e => Some (RState (r_sh s) (r_gs s) (r_bs s) (<[p := e :: r_seen s p]> (r_seen s)) (<[p := None]> (r_now s)), [])
        | None => None
        end
    end.
  (** stack/stack.go:26-33: [frames] is written unless it is there already *)
  Definition baccs (w : shared) (x : option (nat * option mref)) : list acc :=
    match x with
    | Some (e, m) =>
        Rd (LFrames e) :: (if sh_framed w e then [] else [Wr (LFrames e)]) ++ match m with Some m => [Rd (LMap m)] | None => [] end
    | None => []
    end.
  (** interval_aggregation.go:103: DeepEqual of the error and the last sample.
      That is one counted before, which one depends on the event and the interval;
      the rest is looked at only if type, contents and stack are the same
      ([same]), and not if it is the same error *)
  Definition paccs (same : nat → nat → bool) (seen : list nat) (now : option nat) : list acc :=
    match now with
    | Some e =>
        concat (map (λ l, if bool_decide (l ≠ e) && same l e then [Rd (LFrames l); Rd (LFrames e); Rd (LFlag l); Rd (LFlag e)] else []) seen)
    | None => []
    end.
  Fixpoint rrun (s : rstate) (l : list racs) : option (rstate * list rlab) :=
    match l with
    | [] => Some (s, [])
    | a :: l => '(s, x) ← rstep s a; '(s, y) ← rrun s l; Some (s, x ++ y)
    end.
End calls.
