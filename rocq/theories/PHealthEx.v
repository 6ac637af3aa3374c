(** * Lemmas stated as the property theorems on streams, jobs, errors, stacks
      and Bugsnag, and executions *)
From Verif Require Import SHealth SStack PHealth PHealth2 PHealth3 PHealth4 PStack.

(** ** An execution used by the examples: stream 0 with embedded job 1, sinks
    7 and 8, a stream key, then job 3 with a key of its own. *)
Definition ex_clock (n : nat) : Z := 100 * Z.of_nat n.
Definition ex_setup : list api :=
  [ApiNewStream; ApiAddSink 0 7; ApiAddSink 0 8; ApiStreamKv 0 "env" "prod"; ApiNewJob 0 "work"; ApiJobKv 3 "env" "dev";
   ApiJobKv 3 "id" "12"; ApiNewMap; ApiMapSet 5 "id" "13"].
Definition ex_world : world := match api_run (world0 ex_clock) ex_setup with Ok w => w | Crash _ => world0 ex_clock end.
Lemma ex_reach : api_run (world0 ex_clock) ex_setup = Ok ex_world.
Proof. vm_compute. reflexivity. Qed.
Lemma ex_reachable : reachable ex_world.
Proof. exists ex_clock, ex_setup. exact ex_reach. Qed.
(** the calls made by further API calls *)
Definition calls_of (w : world) (h : list api) : list (nat * string * payload * list (string * string)) :=
  match api_run w h with
  | Ok w' => map (λ c, (c_sink c, c_job c, c_what c, map_to_list (c_view c))) (drop (length (w_log w)) (w_log w'))
  | Crash _ => []
  end.

(** ** C01, C02, C03 *)
Lemma thm_fan_out w a j inst jb st :
  reachable w → emission a = Some (j, inst) → w_jobs w !! j = Some jb → w_streams w !! jb_stream jb = Some st →
  ∃ w' cs, api_step w a = Ok w' ∧ w_log w' = w_log w ++ cs ∧ map c_sink cs = st_sinks st ∧
    Forall (λ c, c_job c = jb_name jb ∧ tells w w' jb a (c_what c)) cs.
Proof.
  intros Hr He Hj Hs. destruct (emission_content w a j inst jb st (reachable_wf _ Hr) He Hj Hs) as (w'&cs&H1&H2&H3&H4).
  exists w', cs. split_and!; try done. eapply Forall_impl; [exact H4|]. cbn. tauto.
Qed.
Lemma thm_precedence w a j inst jb st w' cs :
  reachable w → emission a = Some (j, inst) → w_jobs w !! j = Some jb → w_streams w !! jb_stream jb = Some st →
  api_step w a = Ok w' → w_log w' = w_log w ++ cs →
  Forall (λ c, ∀ key, c_view c !! key = lookup_levels (kvs w (st_kvs st)) (kvs w (jb_kvs jb)) (kvs w inst) key) cs.
Proof.
  intros Hr He Hj Hs Hw Hl.
  destruct (emission_content w a j inst jb st (reachable_wf _ Hr) He Hj Hs) as (w1&cs1&H1&H2&H3&H4).
  rewrite Hw in H1. injection H1 as <-. rewrite Hl in H2. apply app_inv_head in H2 as ->.
  eapply Forall_impl; [exact H4|]. cbn. tauto.
Qed.
Lemma thm_no_edit w a j inst w' :
  reachable w → emission a = Some (j, inst) → api_step w a = Ok w' →
  (∀ l m, w_maps w !! l = Some m → w_maps w' !! l = Some m) ∧ w_streams w' = w_streams w ∧ w_jobs w' = w_jobs w.
Proof.
  intros Hr He Hw. apply reachable_wf in Hr. destruct (emission_inv _ _ _ _ _ He Hw) as (jb&st&_&_&->).
  destruct (emission_quiet w a st jb) as [_ Hm Hs Hj _ _]. split; [|done].
  intros l m Hl. rewrite Hm; [done|]. by eapply wf_maps.
Qed.

(** ** C04 *)
Definition ex_alias : list api :=
  [ApiNewStream; ApiAddSink 0 7; ApiStreamKv 0 "env" "prod"; ApiEvent 1 "e"].
Lemma thm_alias :
  ∃ w c w', reachable w ∧ w_log w = [c] ∧ api_step w (ApiStreamKv 0 "env" "test") = Ok w' ∧
    c_view c !! "env" = Some "prod" ∧ kvs w' (c_kvs c) !! "env" = Some "test".
Proof.
  destruct (api_run (world0 ex_clock) ex_alias) as [w|] eqn:E; [|by vm_compute in E].
  exists w. vm_compute in E. injection E as <-. eexists _, _.
  split; [exists ex_clock, ex_alias; vm_compute; reflexivity|].
  split; [reflexivity|]. split; [vm_compute; reflexivity|]. split; vm_compute; reflexivity.
Qed.

Lemma thm_kept w a j inst jb st w1 cs h w2 :
  reachable w → emission a = Some (j, inst) → w_jobs w !! j = Some jb → w_streams w !! jb_stream jb = Some st →
  levels w st jb inst ≠ 1%nat → api_step w a = Ok w1 → w_log w1 = w_log w ++ cs →
  api_run w1 h = Ok w2 → Forall (λ c, kvs w2 (c_kvs c) = c_view c) cs.
Proof. intros Hr. apply kept_kvs. by apply reachable_wf. Qed.

(** ** C05, C06 *)
Lemma thm_wrap w lv e w1 e1 :
  reachable w → valid w e → report w lv e = Ok (w1, e1) →
  reported w w1 e e1 ∧ (∀ s, text_of w e s → text_of w1 e1 s) ∧
  (∀ l, e1 = EUnmuted l → ∃ x st, w_errs w1 !! l = Some (OUnmuted x st true)).
Proof. intros Hr. apply report_spec. by apply reachable_wf. Qed.

Lemma thm_one_notification w lv e w1 e1 jb st b ls w' e' :
  reachable w → is_wrapped e = false → w_jobs w !! level_job lv = Some jb → w_streams w !! jb_stream jb = Some st →
  count_occ Nat.eq_dec (st_sinks st) b = 1%nat → report w lv e = Ok (w1, e1) → chain no_report w1 e1 ls w' e' →
  e' = e1 ∧ ∃ l new kv, e1 = EUnmuted l ∧ w_log w' = w_log w ++ new ∧
    bugsnag_queue b new = [BCmd (jb_name jb) (level_event lv) l kv].
Proof.
  intros Hr He Hj Hs Hb Hrep Hch. apply reachable_wf in Hr.
  destruct (first_report w lv e w1 e1 jb st b Hr He Hj Hs Hb Hrep) as (l&s&new&kv&->&Hl&Hlog&Hq&_).
  destruct (report_wf _ _ _ _ _ Hr Hrep) as [Hwf1 _].
  destruct (chain_emitted no_report w1 (EUnmuted l) ls w' e' b l e s Hch Hwf1 eq_refl Hl) as (->&_&new2&Hlog2&_&Hq2).
  split; [done|]. exists l, (new ++ new2), kv. split; [done|]. split; [by rewrite Hlog2, Hlog, app_assoc|].
  rewrite queue_app, Hq, Hq2 by done. done.
Qed.

Lemma thm_one_notification_interleaved w lv e w1 e1 jb st b ls w' e' :
  reachable w → is_wrapped e = false → w_jobs w !! level_job lv = Some jb → w_streams w !! jb_stream jb = Some st →
  count_occ Nat.eq_dec (st_sinks st) b = 1%nat → report w lv e = Ok (w1, e1) → chain anything w1 e1 ls w' e' →
  e' = e1 ∧ ∃ l new kv, e1 = EUnmuted l ∧ w_log w' = w_log w ++ new ∧
    notified b l new = [BCmd (jb_name jb) (level_event lv) l kv].
Proof.
  intros Hr He Hj Hs Hb Hrep Hch. apply reachable_wf in Hr.
  destruct (first_report w lv e w1 e1 jb st b Hr He Hj Hs Hb Hrep) as (l&s&new&kv&->&Hl&Hlog&_&Hq).
  destruct (report_wf _ _ _ _ _ Hr Hrep) as [Hwf1 _].
  destruct (chain_emitted anything w1 (EUnmuted l) ls w' e' b l e s Hch Hwf1 eq_refl Hl) as (->&_&new2&Hlog2&Hq2&_).
  split; [done|]. exists l, (new ++ new2), kv. split; [done|]. split; [by rewrite Hlog2, Hlog, app_assoc|].
  by rewrite notified_app, Hq, Hq2.
Qed.

Lemma thm_muted w l ls w' e' b :
  reachable w → chain no_report w (EMuted l) ls w' e' →
  e' = EMuted l ∧ ∃ new, w_log w' = w_log w ++ new ∧ bugsnag_queue b new = [].
Proof.
  intros Hr Hch. apply reachable_wf in Hr.
  by destruct (chain_muted no_report w (EMuted l) ls w' e' b l Hch Hr eq_refl (λ _ H, H)).
Qed.

(** ** C07, C08 *)
Lemma thm_stream_run w s name f eid stxt stk hist w1 o st0 :
  reachable w → w_streams w !! s = Some st0 → f (new_job w s name).1 = (w1, o) →
  api_run (new_job w s name).1 hist = Ok w1 →
  ∃ st, w_streams w1 !! s = Some st ∧
  match o with
  | ORet e => ∃ w' cs, stream_run w s name f eid stxt stk = Ok (w', Returned e) ∧ w_log w' = w_log w1 ++ cs ∧
      calls_to (st_sinks st) name (completion w1 (w_clock w (w_ticks w)) (if decide (e = ENil) then 0 else 3)) cs
  | OPanic text => ∃ w' cs1 cs2 id, stream_run w s name f eid stxt stk = Ok (w', Returned (EUser id text)) ∧
      w_log w' = w_log w1 ++ cs1 ++ cs2 ∧
      calls_to (st_sinks st) name (panic_event w' text stxt) cs1 ∧
      calls_to (st_sinks st) name (completion w1 (w_clock w (w_ticks w)) 2) cs2
  | _ => True
  end.
Proof.
  intros Hr Hs0 Hf Hh. pose proof (reachable_wf _ Hr) as Hwf.
  assert (Hst : api_step w (ApiNewJob s name) = Ok (new_job w s name).1) by done.
  destruct (step_wf _ _ _ Hwf Hst) as (Hwf1&_&_). destruct (run_keeps _ _ _ Hwf1 Hh) as [Kj Ks].
  destruct (Kj (w_next w) (Job s name None (w_clock w (w_ticks w)))) as (jb&Hj&Hn&Hss&Hstart).
  { cbn. by rewrite lookup_insert. }
  cbn in Hn, Hss, Hstart. destruct (Ks s st0 Hs0) as [st Hs1]. exists st. split; [done|].
  rewrite <-Hss in Hs1. unfold stream_run. change (new_job w s name) with ((new_job w s name).1, w_next w).
  destruct o as [e|text| |]; try done.
  - destruct (run_returns _ _ f eid stxt stk w1 e jb st Hf Hj Hs1) as (w'&cs&H1&H2&H3).
    exists w', cs. rewrite Hn, Hstart in H3. done.
  - destruct (run_panics _ _ f eid stxt stk w1 text jb st Hf Hj Hs1) as (w'&cs1&cs2&H1&H2&H3&H4&_).
    exists w', cs1, cs2, eid. rewrite Hn in *. rewrite Hstart in H4. done.
Qed.

Lemma thm_run_returns w j f eid stxt stk w1 e jb st :
  f w = (w1, ORet e) → w_jobs w1 !! j = Some jb → w_streams w1 !! jb_stream jb = Some st →
  ∃ w' cs, job_run w j f eid stxt stk = Ok (w', Returned e) ∧ w_log w' = w_log w1 ++ cs ∧
    calls_to (st_sinks st) (jb_name jb) (completion w1 (jb_start jb) (if decide (e = ENil) then 0 else 3)) cs.
Proof. apply run_returns. Qed.
Lemma thm_run_panics w j f eid stxt stk w1 text jb st :
  f w = (w1, OPanic text) → w_jobs w1 !! j = Some jb → w_streams w1 !! jb_stream jb = Some st →
  ∃ w' cs1 cs2 id, job_run w j f eid stxt stk = Ok (w', Returned (EUser id text)) ∧ w_log w' = w_log w1 ++ cs1 ++ cs2 ∧
    calls_to (st_sinks st) (jb_name jb) (panic_event w' text stxt) cs1 ∧
    calls_to (st_sinks st) (jb_name jb) (completion w1 (jb_start jb) 2) cs2.
Proof.
  intros Hf Hj Hs. destruct (run_panics w j f eid stxt stk w1 text jb st Hf Hj Hs) as (w'&cs1&cs2&H1&H2&H3&H4&_).
  exists w', cs1, cs2, eid. done.
Qed.

(** a function that panics with nil, or ends its goroutine, leaves no completion *)
Lemma thm_run_lost :
  reachable ex_world ∧ st_sinks <$> w_streams ex_world !! 0%nat = Some [7; 8]%nat ∧
  (∃ w', job_run ex_world 3 (λ w, (w, OPanicNil)) 0 "" [] = Ok (w', Returned ENil) ∧ w_log w' = w_log ex_world) ∧
  (∃ w', job_run ex_world 3 (λ w, (w, OGoexit)) 0 "" [] = Ok (w', GoroutineEnded) ∧ w_log w' = w_log ex_world).
Proof.
  split; [exact ex_reachable|]. split; [vm_compute; reflexivity|].
  split; exists ex_world; split; reflexivity.
Qed.

Lemma thm_panic_notified_twice w f eid stxt stk w1 text lv jb st b w2 e2 w3 e3 :
  reachable w1 → f w = (w1, OPanic text) → w_jobs w1 !! level_job lv = Some jb → w_streams w1 !! jb_stream jb = Some st →
  count_occ Nat.eq_dec (st_sinks st) b = 1%nat →
  job_run w (level_job lv) f eid stxt stk = Ok (w2, Returned e2) → report w2 lv e2 = Ok (w3, e3) →
  ∃ new l1 l2 kv1 kv2, w_log w3 = w_log w1 ++ new ∧ bugsnag_queue b new =
     [BCmd (jb_name jb) "panic" l1 kv1; BCmd (jb_name jb) (level_event lv) l2 kv2].
Proof.
  intros Hr Hf Hj Hs Hb Hrun Hrep. apply reachable_wf in Hr.
  destruct (run_panics w (level_job lv) f eid stxt stk w1 text jb st Hf Hj Hs) as (w'&cs1&cs2&H1&H2&_&_&Hq&Hj'&Hs'&Hwf').
  rewrite Hrun in H1. injection H1 as <- ->. specialize (Hwf' Hr).
  rewrite <-Hj' in Hj. rewrite <-Hs' in Hs.
  destruct (first_report w2 lv (EUser eid text) w3 e3 jb st b Hwf' eq_refl Hj Hs Hb Hrep) as (l&s&new&kv&_&_&Hlog&Hq2&_).
  destruct (Hq b) as (l1&kv1&Hq1). rewrite Hb in Hq1.
  exists ((cs1 ++ cs2) ++ new), l1, l, kv1, kv. rewrite queue_app, Hq1, Hq2. split; [|done].
  by rewrite Hlog, H2, <-!app_assoc.
Qed.

Lemma thm_panic_notified w f j eid stxt stk w1 text jb st b :
  f w = (w1, OPanic text) → w_jobs w1 !! j = Some jb → w_streams w1 !! jb_stream jb = Some st →
  count_occ Nat.eq_dec (st_sinks st) b = 1%nat →
  ∃ w' r new l kv, job_run w j f eid stxt stk = Ok (w', r) ∧ w_log w' = w_log w1 ++ new ∧
     bugsnag_queue b new = [BCmd (jb_name jb) "panic" l kv].
Proof.
  intros Hf Hj Hs Hb.
  destruct (run_panics w j f eid stxt stk w1 text jb st Hf Hj Hs) as (w'&cs1&cs2&H1&H2&_&_&Hq&_).
  destruct (Hq b) as (l&kv&Hq1). rewrite Hb in Hq1. exists w', (Returned (EUser eid text)), (cs1 ++ cs2), l, kv. done.
Qed.

(** ** C74 *)
Lemma thm_nil_report w lv w1 e1 :
  reachable w → report w lv ENil = Ok (w1, e1) → e1 ≠ ENil ∧ ∀ s, ¬ text_of w1 e1 s.
Proof.
  intros Hr Hrep. destruct (report_spec w lv ENil w1 e1 (reachable_wf _ Hr) I Hrep) as ((l&s&->&_&Hl)&_&_).
  split; [done|]. intros t Ht. inversion Ht as [|l' x t' Hx|l' x st b t' Hx Hy]; subst.
  rewrite Hl in Hx. injection Hx as <- _ _. inversion Hy.
Qed.

(** ** C68 *)
Lemma thm_trace_start cf nt we ee caller rest :
  t_stack (new_trace 2 (cf :: nt :: we :: ee :: caller :: rest)) = take 50 (caller :: rest).
Proof. reflexivity. Qed.
Lemma thm_trace_frames rt skip callers fs t' :
  trace_frames rt (new_trace skip callers) = (t', fs) →
  (length fs ≤ 50)%nat ∧ length fs = length (t_stack (new_trace skip callers)) ∧ trace_frames rt t' = (t', fs) ∧
  ∀ i f, fs !! i = Some f → t_stack (new_trace skip callers) !! i = Some (f_pc f).
Proof.
  intros H. pose proof (trace_bound skip callers) as Hb. pose proof (frames_idem rt (new_trace skip callers)) as Hi.
  rewrite H in Hi. unfold trace_frames, new_trace in H. cbn [t_frames t_stack] in H. injection H as Ht <-.
  rewrite map_length. split_and!; [done|done|done|].
  intros i f Hf. rewrite list_lookup_fmap in Hf.
  change (take MaxStackDepth (drop (S (S skip)) callers)) with (t_stack (new_trace skip callers)) in Hf.
  destruct (t_stack (new_trace skip callers) !! i) as [pc|]; [|done]. cbn in Hf. injection Hf as <-.
  f_equal. unfold new_frame. destruct (if (pc =? 0)%N then None else rt_func rt pc) as [fn|]; [|done].
  destruct (package_and_name fn), (rt_fileline rt (pc - 1)%N). done.
Qed.

(** ** C75: the sending goroutine *)
Lemma thm_sent_in_order tr s : bsteps bq0 tr s → q_sent s ++ q_chan s = enqueued tr.
Proof. apply bsteps_inv. Qed.
Lemma thm_can_send tr s :
  bsteps bq0 tr s → q_done s = false →
  ∃ tr' s', bsteps s tr' s' ∧ enqueued tr' = [] ∧ q_sent s' = enqueued tr.
Proof.
  intros H Hd. destruct s as [q sent dn]. cbn in Hd. subst dn.
  destruct (bsteps_flush q sent) as (tr'&H1&H2). exists tr'. eexists. split; [exact H1|].
  split; [|exact (thm_sent_in_order _ _ H)].
  clear -H2. induction H2 as [|a tr -> _ IH]; [done|]. done.
Qed.
Lemma thm_shutdown_drops :
  ∃ c s, bsteps bq0 [BEnqueue c; BShutdown] s ∧
    ∀ tr s', bsteps s tr s' → c ∉ q_sent s'.
Proof.
  exists (BCmd "j" "e" 0 None). eexists. split.
  - econstructor; [constructor; cbn; unfold bugsnag_chan_size; lia|]. cbn. econstructor; [constructor|constructor].
  - intros tr s' H. apply bsteps_stopped in H as ->; [|done]. cbn. apply not_elem_of_nil.
Qed.
(** once stopped, the 26th report blocks *)
Lemma bstopped_len s tr s' :
  q_done s = true → bsteps s tr s' →
  q_done s' = true ∧ length (q_chan s') = (length (q_chan s) + length tr)%nat ∧ (length (q_chan s) ≤ 25 → length (q_chan s') ≤ 25)%nat.
Proof.
  intros Hd H. induction H as [|s a m tr s' Ha _ IH]; [cbn; split; [done|lia]|]. inversion Ha; subst; cbn in *; try done.
  unfold bugsnag_chan_size in *. destruct (IH Hd) as (H1&H2&H3). rewrite app_length in *. cbn in *. split; [done|]. lia.
Qed.
Lemma thm_stopped_blocks s tr s' :
  q_done s = true → (length (q_chan s) ≤ 25)%nat → bsteps s tr s' → (length tr ≤ 25)%nat.
Proof. intros Hd Hl H. destruct (bstopped_len s tr s' Hd H) as (_&H2&H3). lia. Qed.

(** ** C76 *)
Lemma thm_version_ignored cfg v job event msg frames kvs :
  new_payload (BConfig (bc_apikey cfg) (bc_endpoint cfg) (bc_stage cfg) v (bc_host cfg)) job event msg frames kvs =
  new_payload cfg job event msg frames kvs.
Proof. by destruct cfg. Qed.
Lemma thm_no_stage_default :
  bv_stage <$> head (bp_events (new_payload (new_sink_config (BConfig "key" "" "" "" "")) "j" "e" "m" [] ∅)) = Some "".
Proof. reflexivity. Qed.
Lemma thm_endpoint cfg :
  bc_endpoint (new_sink_config cfg) ≠ "" ∧
  (bc_endpoint cfg ≠ "" → new_sink_config cfg = cfg) ∧
  (bc_endpoint cfg = "" → bc_endpoint (new_sink_config cfg) = "https://notify.bugsnag.com/").
Proof.
  destruct cfg as [k e s v h]. unfold new_sink_config. cbn. destruct (String.eqb_spec e ""); split_and!; try done.
Qed.

(** ** C77 *)
Lemma thm_sibling :
  ∃ rt file, is_system_package rt file = true ∧ ¬ inside (rt_goroot rt) file ∧ rt_goroot rt ≠ "".
Proof.
  exists (Runtime (λ _, None) (λ _, ("", 0)) "/usr/local/go"), "/usr/local/go-app/main.go".
  split; [reflexivity|]. split; [|done]. intros [r Hr]. by apply (f_equal (String.substring 13 1)) in Hr.
Qed.
Lemma thm_system rt file :
  (inside (rt_goroot rt) file → is_system_package rt file = true) ∧
  (is_system_package rt file = true → ∃ rest, file = rt_goroot rt +:+ rest).
Proof.
  unfold is_system_package. rewrite has_prefix_spec. split; [|done]. intros [r ->]. by exists ("/" +:+ r).
Qed.
