(** * Data races, and notifications of an error reported at once by several
    goroutines (C119, C120) *)
From Verif Require Export MRace.

(** ** Executions *)
(** goroutines about to make the calls [progs], nothing queued *)
Definition starts_with (w : shared) (progs : list (list call)) : rstate :=
  RState w (map (λ cs, (Idle, cs)) progs) (λ _, None) (λ _, []) (λ _, None).
Definition fresh_queues (w : shared) : Prop := (∀ b, sh_queue w b = []) ∧ ∀ p, sh_polls w p = [].
(** [executes sof w progs s tr]: they can reach [s], [tr] is what happened *)
Definition executes (sof : nat → nat) (w : shared) (progs : list (list call)) (s : rstate) (tr : list rlab) : Prop :=
  ∃ l, rrun sof (starts_with w progs) l = Some (s, tr).

(** ** Races *)
(** [same]: which errors have the same type, text and stack *)
Inductive actor := Goroutine (g : nat) | BugsnagLoop (b : nat) | PollingLoop (p : nat).
Definition about_to (sof : nat → nat) (same : nat → nat → bool) (s : rstate) (a : actor) (x : acc) : Prop :=
  match a with
  | Goroutine g => ∃ p cs, r_gs s !! g = Some (p, cs) ∧ x ∈ accs sof p
  | BugsnagLoop b => x ∈ baccs (r_sh s) (r_bs s b)
  | PollingLoop p => x ∈ paccs same (r_seen s p) (r_now s p)
  end.
(** someone is about to write what another is about to write or read *)
Definition race (sof : nat → nat) (same : nat → nat → bool) (s : rstate) : Prop :=
  ∃ a b l, a ≠ b ∧ about_to sof same s a (Wr l) ∧ (about_to sof same s b (Wr l) ∨ about_to sof same s b (Rd l)).

(** ** Good use *)
Definition on_job (j : nat) (c : call) : Prop :=
  match c with CKeyValue (OJob i) => i = j | CEmit x => em_job x = j | _ => False end.
Definition on_map (c : nat) (x : call) : Prop :=
  match x with CInst i => i = c | CEmit x => em_inst x = Some c | _ => False end.
Definition reports (e : nat) (c : call) : Prop := match c with CEmit x => em_err x = Some e | _ => False end.
Definition says (progs : list (list call)) (g : nat) (c : call) : Prop := ∃ cs, progs !! g = Some cs ∧ c ∈ cs.

(** an error is reported on a stream with this sink *)
Definition goes_to (sof : nat → nat) (w : shared) (progs : list (list call)) (e : nat) (k : skind) : Prop :=
  ∃ g x, says progs g (CEmit x) ∧ em_err x = Some e ∧ k ∈ sh_sinks w (sof (em_job x)).

Record used_well (sof : nat → nat) (same : nat → nat → bool) (w : shared) (progs : list (list call)) : Prop := {
  (** sinks and key/values of streams are set up beforehand *)
  uw_setup : ∀ g c, says progs g c → match c with CAddSink _ _ | CKeyValue (OStream _) => False | _ => True end;
  (** a job that gets key/values, a map that is written and an error that is
      reported are used by one goroutine *)
  uw_job : ∀ g h j c, says progs g (CKeyValue (OJob j)) → says progs h c → on_job j c → g = h;
  uw_map : ∀ g h c x, says progs g (CInst c) → says progs h x → on_map c x → g = h;
  uw_err : ∀ g h e c d, says progs g c → says progs h d → reports e c → reports e d → g = h;
  (** once an error was reported, the job and the map it was reported with get
      no more key/values, unless the stream has some *)
  uw_kept : ∀ g cs1 x cs2 e, progs !! g = Some (cs1 ++ CEmit x :: cs2) → em_err x = Some e →
    (sh_made w (OStream (sof (em_job x))) = true ∧ sh_full w (MOf (OStream (sof (em_job x)))) = true) ∨
    (CKeyValue (OJob (em_job x)) ∉ cs2 ∧ ∀ c, em_inst x = Some c → CInst c ∉ cs2);
  (** an error goes to one Bugsnag sink *)
  uw_bugsnag : ∀ e b c, goes_to sof w progs e (SkBugsnag b) → goes_to sof w progs e (SkBugsnag c) → b = c;
  (** no two errors with the same text and stack go to a polling sink *)
  uw_polling : ∀ e l p, goes_to sof w progs e (SkPoll p) → goes_to sof w progs l (SkPoll p) → same l e = true → l = e }.

(** ** Notifications *)
Definition sends (b e : nat) (tr : list rlab) : nat :=
  length (filter (λ x, x = LSend b e) tr).
(** reports of [e] that began before one returned *)
Definition begun (e : nat) (x : rlab) : bool := match x with LBegin _ (CEmit y) => bool_decide (em_err y = Some e) | _ => false end.
Definition returned (e : nat) (x : rlab) : bool := match x with LReturn _ (CEmit y) => bool_decide (em_err y = Some e) | _ => false end.
Fixpoint overlapping (e : nat) (tr : list rlab) : nat :=
  match tr with
  | [] => 0
  | x :: tr => if returned e x then 0 else (if begun e x then 1 else 0) + overlapping e tr
  end%nat.
(** how often sink [b] is attached *)
Definition times (b : nat) (ks : list skind) : nat := length (filter (λ k, k = SkBugsnag b) ks).
Definition no_setup (progs : list (list call)) : Prop := ∀ g s k, ¬ says progs g (CAddSink s k).
