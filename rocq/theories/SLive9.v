(** * What healthd must hear, and healthtop show, of every host (C128, C129)

    In executions without end (SFair.v). *)
From Verif Require Export SLive2 SLive7 SHealthd SWire SApi STopTable.

Definition is_tick (a : hact) : Prop := match a with HTick _ => True | _ => False end.
Definition is_answer_of (k : nat) (h : string) (a : hact) : Prop := match a with HPush j r => j = k ∧ r_hp r = h | _ => False end.
(** the ticker ticks on and the select does not overlook it for ever; polls end
    (within five seconds, poll.go:36-38), and senders on a channel are served in
    the order in which they came *)
Record asks_fair (x : exec hl (Z * hact)) : Prop := {
  af_tick : strongly_fair hlstep (is_act is_tick) x;
  af_answer : ∀ k h, strongly_fair hlstep (is_act (is_answer_of k h)) x }.
(** the rounds of polls that had begun before moment [n]: the first one, and one
    for every tick *)
Definition rounds_before (x : exec hl (Z * hact)) (n : nat) : nat :=
  S (length (omap (λ a : Z * hact, match a.2 with HTick _ => Some tt | _ => None end) (acts x n))).

(** the time of every response is not Go's zero time (the year 1) *)
Definition clock_right (x : exec hl (Z * hact)) : Prop :=
  ∀ n t k r t1 t2, x_act x n = Some (t, HTakeResp k r t1 t2) → t1 ≠ 0.
(** [r] is the last response of host [h] among those taken before moment [n];
    it was asked for in round [k] *)
Definition last_of (x : exec hl (Z * hact)) (n : nat) (h : string) (k : nat) (r : resp) : Prop :=
  r_hp r = h ∧ ∃ q t t1 t2, (q < n)%nat ∧ x_act x q = Some (t, HTakeResp k r t1 t2) ∧
    ∀ p t' k' r' t1' t2', (q < p < n)%nat → x_act x p = Some (t', HTakeResp k' r' t1' t2') → r_hp r' ≠ h.
(** what a page says of a host whose last response is [r] *)
Definition says (hs : hstatus) (r : resp) : Prop :=
  hs_hp hs = r_hp r ∧ hs_check hs = r_ts r ∧ hs_inst hs = r_inst r ∧ hs_dur hs = r_dur r ∧ hs_err hs = default "" (r_err r) ∧
  hs_nanos hs = r_nanos r ∧ hs_code hs = r_code r.

(** [x]: healthd, [y]: healthtop's table of hosts.  Every page that poll [i] of
    healthtop gets is what healthd wrote for some statuses a handler had got from
    the loop after the poll was started; it is legible. *)
Definition hosts_page (srt : sorting_fn hstatus) (off : Z → Z) (fmt : Z → string) (inst : string) (l a : list hstatus) : Prop :=
  ∃ dur msg e now body, in_int64 dur ∧ Forall (λ h, host_ok good_name off h ∧ tidy (hs_hp h) ∧ tidy (hs_err h) ∧ tidy (fmt (hs_check h))) l ∧
    render msg (enc_api_hosts off inst dur (handler_hosts srt l)) = (200, body) ∧ top_hosts_event e body now = TResponse (map Some a) now.
Record hosts_exec (srt : sorting_fn hstatus) (off : Z → Z) (fmt : Z → string) (inst : string)
    (x : exec hl (Z * hact)) (y : exec (tloop (list hstatus)) (tlev (list hstatus))) : Prop := {
  ho_exec : is_exec tlstep y;
  ho_start : x_at y 0%nat = tloop0;
  ho_fair : loop_fair y;
  ho_ends : ends_or_not y;
  ho_pages : forever (happens is_page y);
  ho_page : ∀ n i a, x_act y n = Some (LAnswer i (inl a)) →
    ∃ m t j l, (m ≤ n)%nat ∧ (i < polls_before y m)%nat ∧ x_act x m = Some (t, HRet j (AnsH l)) ∧ hosts_page srt off fmt inst l a }.

(** a line of the table: how the poll that ended with [r] went *)
Definition tells (fmt : Z → string) (r : resp) (cells : list string) : Prop :=
  ∃ st t, cells = [r_hp r; st; fmt (r_ts r); t; ""] ∧ cell_text (r_nanos r) t ∧
    (r_code r = 200 ∧ default "" (r_err r) = "" → st = "Success") ∧
    (¬ (r_code r = 200 ∧ default "" (r_err r) = "") → r_ts r ≠ 0 → st = "Failure: " +:+ default "" (r_err r)).
