(** * What must happen sooner or later in healthd (C113)

    In executions without end (SFair.v). *)
From Verif Require Export SFair SHealthdLoop.

Definition is_act (P : hact → Prop) (a : Z * hact) : Prop := P a.2.
(** the case of the select that receives from responses, healthd.go:137 *)
Definition takes_response (a : hact) : Prop := match a with HTakeResp _ _ _ _ | HTakeNil _ _ => True | _ => False end.
Definition takes_intervals (a : hact) : Prop := match a with HTakeI _ => True | _ => False end.
Definition takes_hosts (a : hact) : Prop := match a with HTakeH _ _ => True | _ => False end.
Definition is_fire (a : hact) : Prop := match a with HFire _ => True | _ => False end.
Definition takes_stop (a : hact) : Prop := match a with HStopTake _ => True | _ => False end.
Definition is_req (a : hact) : Prop := a = HReq.
Definition is_ret (a : hact) : Prop := match a with HRet _ _ => True | _ => False end.
Definition is_deb (a : hact) : Prop := match a with HDeb _ => True | _ => False end.
Definition is_stop_ret (a : hact) : Prop := match a with HStopRet _ => True | _ => False end.
Definition is_queue (i : nat) (a : hact) : Prop := match a with HQueue j _ => j = i | _ => False end.
Definition is_stop (a : hact) : Prop := match a with HStop _ => True | _ => False end.

(** the select overlooks none of its cases forever and the waiting handlers get
    their turn; the loop, the debouncer and the receivers of answers go on *)
Record healthd_fair (x : exec hl (Z * hact)) : Prop := {
  hf_resp : strongly_fair hlstep (is_act takes_response) x;
  hf_i : strongly_fair hlstep (is_act takes_intervals) x;
  hf_h : strongly_fair hlstep (is_act takes_hosts) x;
  hf_fire : strongly_fair hlstep (is_act is_fire) x;
  hf_stop : strongly_fair hlstep (is_act takes_stop) x;
  hf_queue : ∀ i, strongly_fair hlstep (is_act (is_queue i)) x;
  hf_req : weakly_fair hlstep (is_act is_req) x;
  hf_ret : weakly_fair hlstep (is_act is_ret) x;
  hf_deb : weakly_fair hlstep (is_act is_deb) x;
  hf_stop_ret : weakly_fair hlstep (is_act is_stop_ret) x }.

(** an execution in which the loop neither crashes nor waits for the debouncer
    while the debouncer waits for the loop *)
Record healthd_exec (hosts : list string) (x : exec hl (Z * hact)) : Prop := {
  he_exec : is_exec hlstep x;
  he_start : x_at x 0%nat = hl_init hosts;
  he_crash : ∀ n, l_loop (x_at x n) ≠ ACrash;
  he_wedge : ∀ n, ¬ wedged (x_at x n) }.

(** the clock shows times after Go's zero time, and passes every time *)
Definition time_passes (x : exec hl (Z * hact)) : Prop :=
  (∀ n t a, x_act x n = Some (t, a) → 0 < t) ∧
  ∀ T, ∃ m, ∀ n t a, (m ≤ n)%nat → x_act x n = Some (t, a) → T ≤ t.

(** what was put into responses, and what the loop took from it *)
Definition pushed (tr : list (Z * hact)) : list (nat * option resp) :=
  omap (λ a : Z * hact, match a.2 with HPush k r => Some (k, Some r) | HPushNil k => Some (k, None) | _ => None end) tr.
Definition received (tr : list (Z * hact)) : list (nat * option resp) :=
  omap (λ a : Z * hact, match a.2 with HTakeResp k r _ _ => Some (k, Some r) | HTakeNil k _ => Some (k, None) | _ => None end) tr.
