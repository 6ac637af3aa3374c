(** * What streams, jobs and error reports should do (C01-C08)

    Independent of how the model computes it. *)
From Verif Require Export MHealth MBugsnag.

(** Worlds an application can reach through the API *)
Definition reachable (w : world) : Prop :=
  ∃ clock hist, api_run (world0 clock) hist = Ok w.

(** ** Emissions *)

(** the job an emitting call is made on, and the call's own key/values *)
Definition emission (a : api) : option (nat * option nat) :=
  match a with
  | ApiEvent j _ | ApiEventErr j _ _ _ | ApiTiming j _ _ | ApiGauge j _ _ | ApiComplete j _ => Some (j, None)
  | ApiEventKv j _ i | ApiEventErrKv j _ _ i _ | ApiTimingKv j _ _ i | ApiGaugeKv j _ _ i
  | ApiCompleteKv j _ i => Some (j, i)
  | _ => None
  end.

(** muted errors and errors reported before are passed on as they are *)
Definition is_wrapped (x : errv) : bool := match x with EMuted _ | EUnmuted _ => true | _ => false end.

(** [reported w w' x e]: [e] stands for the caller's error [x]: it is [x] when
    [x] was wrapped already, and otherwise a new object holding just [x] *)
Definition reported (w w' : world) (x e : errv) : Prop :=
  if is_wrapped x then e = x
  else ∃ l stack, e = EUnmuted l ∧ w_errs w !! l = None ∧ w_errs w' !! l = Some (OUnmuted x stack true).

(** the Emitted flag before the call *)
Definition was_emitted (w : world) (x : errv) (b : bool) : Prop :=
  match x with
  | EUnmuted l => match w_errs w !! l with Some (OUnmuted _ _ b') => b = b' | _ => b = false end
  | _ => b = false
  end.

(** what a sink must be told by an emission that took the world from [w] to
    [w'] *)
Inductive tells (w w' : world) (jb : job) : api → payload → Prop :=
  | T_event j e : tells w w' jb (ApiEvent j e) (PEvent e)
  | T_eventkv j e i : tells w w' jb (ApiEventKv j e i) (PEvent e)
  | T_err j e x s x' b : reported w w' x x' → was_emitted w x b →
      tells w w' jb (ApiEventErr j e x s) (PEventErr e x' b)
  | T_errkv j e x i s x' b : reported w w' x x' → was_emitted w x b →
      tells w w' jb (ApiEventErrKv j e x i s) (PEventErr e x' b)
  | T_timing j e n : tells w w' jb (ApiTiming j e n) (PTiming e n)
  | T_timingkv j e n i : tells w w' jb (ApiTimingKv j e n i) (PTiming e n)
  | T_gauge j e v : tells w w' jb (ApiGauge j e v) (PGauge e v)
  | T_gaugekv j e v i : tells w w' jb (ApiGaugeKv j e v i) (PGauge e v)
  | T_complete j s t : (w_ticks w ≤ t < w_ticks w')%nat →
      tells w w' jb (ApiComplete j s) (PComplete s (sub_sat (w_clock w t) (jb_start jb)))
  | T_completekv j s i t : (w_ticks w ≤ t < w_ticks w')%nat →
      tells w w' jb (ApiCompleteKv j s i) (PComplete s (sub_sat (w_clock w t) (jb_start jb))).

(** the sinks attached to stream [s] by a history, in order *)
Definition attached (s : nat) (hist : list api) : list nat :=
  omap (λ a, match a with ApiAddSink s' k => if bool_decide (s' = s) then Some k else None | _ => None end) hist.

(** ** Key/values: the call's over the job's over the stream's *)
Definition lookup_levels (stream job call : gmap string string) (key : string) : option string :=
  match call !! key with
  | Some v => Some v
  | None => match job !! key with Some v => Some v | None => stream !! key end
  end.

(** how many of the three levels have key/values *)
Definition nonempty (m : gmap string string) : nat := if bool_decide (m ≠ ∅) then 1 else 0.
Definition levels (w : world) (st : stream) (jb : job) (inst : option nat) : nat :=
  nonempty (kvs w (st_kvs st)) + nonempty (kvs w (jb_kvs jb)) + nonempty (kvs w inst).

(** an error value points to an object of its kind *)
Definition valid (w : world) (e : errv) : Prop :=
  match e with
  | EMuted l => ∃ x, w_errs w !! l = Some (OMuted x)
  | EUnmuted l => ∃ x st b, w_errs w !! l = Some (OUnmuted x st b)
  | _ => True
  end.

(** ** Error texts: [e.Error()] is [s] *)
Inductive text_of (w : world) : errv → string → Prop :=
  | Tx_user id s : text_of w (EUser id s) s
  | Tx_muted l e s : w_errs w !! l = Some (OMuted e) → text_of w e s → text_of w (EMuted l) s
  | Tx_unmuted l e st b s : w_errs w !! l = Some (OUnmuted e st b) → text_of w e s → text_of w (EUnmuted l) s.

(** ** One report per level of a call stack *)
Inductive level :=
  | LErr (j : nat) (event : string) (stack : list N)
  | LErrKv (j : nat) (event : string) (inst : option nat) (stack : list N).
Definition level_job (l : level) : nat := match l with LErr j _ _ | LErrKv j _ _ _ => j end.
Definition level_event (l : level) : string := match l with LErr _ e _ | LErrKv _ e _ _ => e end.

(** reporting an error at one level *)
Definition report (w : world) (l : level) (e : errv) : res (world * errv) :=
  match l with
  | LErr j ev s => job_event_err w j ev e s
  | LErrKv j ev i s => job_event_err_kv w j ev e i s
  end.

(** the levels, innermost first; between two levels the application may make
    any other calls allowed by [ok]; each level reports what the one below
    returned *)
Inductive chain (ok : api → Prop) : world → errv → list level → world → errv → Prop :=
  | Ch_nil w e : chain ok w e [] w e
  | Ch_other w a w1 e ls w' e' : ok a → api_step w a = Ok w1 → chain ok w1 e ls w' e' → chain ok w e ls w' e'
  | Ch_report w e l w1 e1 ls w' e' :
      report w l e = Ok (w1, e1) → chain ok w1 e1 ls w' e' → chain ok w e (l :: ls) w' e'.

Definition anything (a : api) : Prop := True.
Definition no_report (a : api) : Prop :=
  match a with ApiEventErr _ _ _ _ | ApiEventErrKv _ _ _ _ _ => False | _ => True end.

(** ** Notifications about one error object *)
Definition notified (b : nat) (l : nat) (log : list call) : list bcmd :=
  filter (λ c, b_err c = l) (bugsnag_queue b log).

(** ** Calls expected from Run *)

(** one call per sink, in order, with payloads and key/values as described *)
Definition calls_to (sinks : list nat) (name : string) (what : payload → gmap string string → Prop) (cs : list call) : Prop :=
  map c_sink cs = sinks ∧ Forall (λ c, c_job c = name ∧ what (c_what c) (c_view c)) cs.

(** a completion with the time since the job started, read now or later *)
Definition completion (w : world) (start status : Z) (p : payload) (view : gmap string string) : Prop :=
  ∃ t, (w_ticks w ≤ t)%nat ∧ p = PComplete status (sub_sat (w_clock w t) start).

(** an error event named panic for a new error with the panic text, with the stack text
    among its key/values *)
Definition panic_event (w' : world) (text stacktext : string) (p : payload) (view : gmap string string) : Prop :=
  ∃ l id st, p = PEventErr "panic" (EUnmuted l) false ∧ w_errs w' !! l = Some (OUnmuted (EUser id text) st true) ∧
    view !! "stack" = Some stacktext.
