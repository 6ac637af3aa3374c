(** * Proofs about healthd's own instrumentation *)
From Verif Require Import SRequest PHealth PHealth2 PHealth3 PHealth4 PHealthEx.

Lemma event_kv_calls w j jb st event inst kv :
  w_jobs w !! j = Some jb → w_streams w !! jb_stream jb = Some st →
  (∀ k v, (k, v) ∈ kv → kvs w inst !! k = Some v) →
  ∃ w' cs, job_event_kv w j event inst = Ok w' ∧ w_log w' = w_log w ++ cs ∧
    calls_to (st_sinks st) (jb_name jb) (event_with event kv) cs ∧ quiet w w'.
Proof.
  intros Hj Hs Hkv. rewrite (event_open w j jb st Hj Hs).
  destruct (simple_log w st jb inst (PEvent event)) as (all&view&Hl&Hv&_).
  eexists _, _. split; [done|]. split; [exact Hl|]. split; [|apply simple_quiet].
  split; [rewrite map_map; apply map_id|]. apply Forall_forall. intros c (k&->&_)%elem_of_list_fmap. cbn.
  split; [done|]. split; [done|]. intros k' v Hin. rewrite Hv. unfold lookup_levels. by rewrite (Hkv _ _ Hin).
Qed.

Lemma complete_kv_calls w j jb st status inst kv :
  w_jobs w !! j = Some jb → w_streams w !! jb_stream jb = Some st →
  (∀ k v, (k, v) ∈ kv → kvs w inst !! k = Some v) →
  ∃ w' cs, job_complete_kv w j status inst = Ok w' ∧ w_log w' = w_log w ++ cs ∧
    calls_to (st_sinks st) (jb_name jb) (completion_with w (jb_start jb) status kv) cs ∧ quiet w w' ∧ w_errs w' = w_errs w.
Proof.
  intros Hj Hs Hkv. rewrite (complete_open w j jb st Hj Hs).
  destruct (complete_log w st jb inst status) as (all&view&cs&Hl&Hk&Ht&Hf&Hv&_).
  eexists _, cs. split; [done|]. split; [exact Hl|]. split; [|split; [apply complete_quiet|]].
  - split; [done|]. eapply Forall_impl; [exact Hf|]. cbn. intros c (H1&_&->&t&Htt&Hc). split; [done|].
    split; [exists t; split; [lia|done]|].
    intros k' v Hin. rewrite Hv. unfold lookup_levels. by rewrite (Hkv _ _ Hin).
  - unfold complete_result. destruct (merged_key_values w st jb inst) as [w1 all1] eqn:E.
    by destruct (merged_same _ _ _ _ _ _ E) as [? _].
Qed.

Lemma http_status_class code : class_of code (http_status code).
Proof.
  unfold http_status. repeat case_match; rewrite ?Z.ltb_lt, ?Z.ltb_ge, ?Z.eqb_eq, ?Z.eqb_neq in *; subst.
  - by apply Cl_ok.
  - apply Cl_422.
  - apply Cl_4xx; [lia|done].
  - apply Cl_5xx. lia.
Qed.

Lemma wf_new_job w s name : wf w → wf (new_job w s name).1.
Proof. intros Hwf. eapply (step_wf w (ApiNewJob s name)); [done|reflexivity]. Qed.
Lemma wf_new_map w m : wf w → wf (new_map w m).1.
Proof. intros Hwf. cbn. wfsolve Hwf. Qed.

Lemma thm_middleware w s route path st :
  reachable w → w_streams w !! s = Some st →
  ∃ w1 j cs1, w_log w1 = w_log w ++ cs1 ∧
    calls_to (st_sinks st) route (event_with "starting_request" [("path", path)]) cs1 ∧
    ∀ next hist w2 code, next w1 j = (w2, Some code) → api_run w1 hist = Ok w2 →
    ∃ w' cs2 st2 status, health_middleware w s route path next = Ok w' ∧
      w_streams w2 !! s = Some st2 ∧ w_log w' = w_log w2 ++ cs2 ∧ class_of code status ∧
      calls_to (st_sinks st2) route
        (completion_with w2 (w_clock w (w_ticks w)) status [("code", dec_int code); ("path", path)]) cs2.
Proof.
  intros Hr Hs. apply reachable_wf in Hr. unfold health_middleware.
  pose proof (wf_new_job w s route Hr) as Hwf1. cbn [new_job now fst w_next] in Hwf1.
  cbn [new_job now w_next]. set (wa := bump _) in *.
  assert (Hja : w_jobs wa !! w_next w = Some (Job s route None (w_clock w (w_ticks w)))) by (cbn; by rewrite lookup_insert).
  assert (Hsa : w_streams wa !! s = Some st) by done.
  pose proof (wf_new_map wa {["path" := path]} Hwf1) as Hwf2. cbn [new_map fst] in Hwf2.
  cbn [new_map]. set (wb := bump (set_maps wa _)) in *.
  destruct (event_kv_calls wb (w_next w) (Job s route None (w_clock w (w_ticks w))) st "starting_request"
              (Some (w_next wa)) [("path", path)]) as (w1&cs1&Hok&Hlog&Hcalls&Hq); [done|done| |].
  { intros k v Hin%elem_of_list_singleton. injection Hin as -> ->. subst wb. cbn. rewrite lookup_insert. cbn. by rewrite lookup_singleton. }
  exists w1, (w_next w), cs1. split; [exact Hlog|]. split; [exact Hcalls|].
  intros next hist w2 code Hn Hh. rewrite Hok. cbn [rbind]. rewrite Hn.
  assert (Hwf3 : wf w1). { eapply (step_wf wb (ApiEventKv (w_next w) "starting_request" (Some (w_next wa)))); [done|exact Hok]. }
  destruct (run_keeps _ _ _ Hwf3 Hh) as [Kj Ks].
  destruct (Kj (w_next w) (Job s route None (w_clock w (w_ticks w)))) as (jb2&Hj2&Hn2&Hst2&Hstart2).
  { by rewrite (q_jobs _ _ Hq). }
  destruct (Ks s st) as [st2 Hs2]; [by rewrite (q_streams _ _ Hq)|].
  cbn in Hn2, Hst2, Hstart2.
  set (m2 := <["code":=dec_int code]> {["path":=path]}). set (wc := (new_map w2 m2).1).
  destruct (complete_kv_calls wc (w_next w) jb2 st2 (http_status code) (Some (w_next w2)) [("code", dec_int code); ("path", path)])
    as (w'&cs2&Hok2&Hlog2&Hcalls2&_); [done|by rewrite Hst2| |].
  { intros k v Hin. subst wc m2. cbn. rewrite lookup_insert. cbn.
    apply elem_of_cons in Hin as [Hin|Hin%elem_of_list_singleton]; injection Hin as -> ->; [by rewrite lookup_insert|].
    rewrite lookup_insert_ne by done. by rewrite lookup_singleton. }
  exists w', cs2, st2, (http_status code). split; [exact Hok2|]. split; [done|]. split; [exact Hlog2|].
  split; [apply http_status_class|]. rewrite Hn2, Hstart2 in Hcalls2. exact Hcalls2.
Qed.

(** a panicking handler leaves no completion *)
Lemma thm_middleware_panic w s route path st :
  reachable w → w_streams w !! s = Some st →
  ∃ w1 j cs1, calls_to (st_sinks st) route (event_with "starting_request" [("path", path)]) cs1 ∧
    w_log w1 = w_log w ++ cs1 ∧
    ∀ next, next w1 j = (w1, None) → health_middleware w s route path next = Ok w1.
Proof.
  intros Hr Hs. unfold health_middleware.
  cbn [new_job now w_next]. set (wa := bump _) in *.
  cbn [new_map]. set (wb := bump (set_maps wa _)) in *.
  destruct (event_kv_calls wb (w_next w) (Job s route None (w_clock w (w_ticks w))) st "starting_request"
              (Some (w_next wa)) [("path", path)]) as (w1&cs1&Hok&Hlog&Hcalls&Hq); [|done| |].
  { subst wb wa. cbn. by rewrite lookup_insert. }
  { intros k v Hin%elem_of_list_singleton. injection Hin as -> ->. subst wb. cbn. rewrite lookup_insert. cbn. by rewrite lookup_singleton. }
  exists w1, (w_next w), cs1. split; [done|]. split; [done|].
  intros next Hn. rewrite Hok. cbn [rbind]. by rewrite Hn.
Qed.

(** ** Polls *)
Lemma err_calls w j jb st event x stk :
  wf w → w_jobs w !! j = Some jb → w_streams w !! jb_stream jb = Some st → is_wrapped x = false →
  ∃ w' l cs, job_event_err w j event x stk = Ok (w', EUnmuted l) ∧ w_log w' = w_log w ++ cs ∧
    w_errs w' !! l = Some (OUnmuted x stk true) ∧
    map c_sink cs = st_sinks st ∧ Forall (λ c, c_job c = jb_name jb ∧ c_what c = PEventErr event (EUnmuted l) false) cs ∧
    quiet w w' ∧ w_ticks w' = w_ticks w.
Proof.
  intros Hwf Hj Hs Hx. destruct (kv_forms w j) as (_&->&_). rewrite (err_open w j jb st Hj Hs).
  destruct (err_log w st jb None event x stk) as (all&view&Hl&Hv&_).
  assert (Hw : (wrap_err w x stk).2 = EUnmuted (w_next w)) by (by destruct x).
  assert (He : emitted (wrap_err w x stk).1 (wrap_err w x stk).2 = false).
  { destruct x; try done; cbn; by rewrite lookup_insert. }
  pose proof (err_result_snd w st jb None event x stk) as Hsnd. rewrite Hw in Hsnd.
  pose proof (err_result_errs w st jb None event x stk) as Herr.
  pose proof (err_quiet w st jb None event x stk) as Hq.
  pose proof (err_ticks w st jb None event x stk) as Ht.
  destruct (err_result w st jb None event x stk) as [w' e'] eqn:E. cbn in *. subst e'.
  rewrite He, Hw in Hl.
  eexists w', (w_next w), _. split; [done|]. split; [exact Hl|]. split; [|split; [|split; [|done]]].
  - rewrite Herr. destruct x; try done; cbn; rewrite lookup_insert; cbn; by rewrite lookup_insert.
  - rewrite map_map; apply map_id.
  - apply Forall_forall. by intros c (k&->&_)%elem_of_list_fmap.
Qed.

Lemma thm_poll_ok w s hp ts code nanos y stk st :
  reachable w → w_streams w !! s = Some st →
  ∃ w' cs, poll w s hp ts (FReply code nanos y) stk =
      Ok (w', Resp hp ts None code nanos (y_inst y) (y_dur y) (y_aggs y)) ∧
    w_log w' = w_log w ++ cs ∧
    calls_to (st_sinks st) "poll" (completion_with w (w_clock w (w_ticks w)) 0 [("host_port", hp)]) cs.
Proof.
  intros Hr Hs. unfold poll. cbn [new_job now w_next]. set (wa := bump _) in *. cbn [rbind].
  cbn [new_map]. set (wb := bump (set_maps wa _)) in *.
  destruct (complete_kv_calls wb (w_next w) (Job s "poll" None (w_clock w (w_ticks w))) st Success (Some (w_next wa)) [("host_port", hp)])
    as (w'&cs&Hok&Hlog&[Hc1 Hc2]&_); [|done| |].
  { subst wb wa. cbn. by rewrite lookup_insert. }
  { intros k v Hin%elem_of_list_singleton. injection Hin as -> ->. subst wb. cbn. rewrite lookup_insert. cbn. by rewrite lookup_singleton. }
  rewrite Hok. cbn [rbind]. exists w', cs. split; [done|]. split; [exact Hlog|].
  split; [done|]. eapply Forall_impl; [exact Hc2|]. cbn.
  intros c [? [(t&Ht&?) ?]]. split; [done|]. split; [|done]. exists t. split; [|done]. subst wb wa. cbn in Ht. lia.
Qed.

Lemma thm_poll_failed w s hp ts f step x id text stk st :
  reachable w → w_streams w !! s = Some st → failed_at f step x → x = EUser id text →
  ∃ w' r cs1 cs2, poll w s hp ts f stk = Ok (w', r) ∧
    r_hp r = hp ∧ r_ts r = ts ∧ r_code r = fetch_code f ∧ r_err r = Some text ∧
    w_log w' = w_log w ++ cs1 ++ cs2 ∧
    calls_to (st_sinks st) "poll" (error_event w' step x) cs1 ∧
    calls_to (st_sinks st) "poll" (completion_with w (w_clock w (w_ticks w)) 3 [("host_port", hp)]) cs2.
Proof.
  intros Hr Hs Hf ->. apply reachable_wf in Hr. unfold poll. pose proof (wf_new_job w s "poll" Hr) as Hwf1. cbn [new_job now fst w_next] in Hwf1.
  cbn [new_job now w_next]. set (wa := bump _) in *. set (x := EUser id text) in *.
  set (jb := Job s "poll" None (w_clock w (w_ticks w))).
  assert (Hja : w_jobs wa !! w_next w = Some jb) by (cbn; by rewrite lookup_insert).
  destruct (err_calls wa (w_next w) jb st step x stk Hwf1 Hja Hs eq_refl) as (wb&l&cs1&Hok&Hlog&Hl&Hk1&Hk2&Hq&Ht).
  assert (∃ nanos part, (match f with
       | FGet x => r ←r job_event_err wa (w_next w) "poll.client.get" x stk; Ok (r.1, Some r.2, 0, 0, Reply "" 0 [])
       | FRead code nanos x => r ←r job_event_err wa (w_next w) "poll.ioutil.read_all" x stk; Ok (r.1, Some r.2, code, nanos, Reply "" 0 [])
       | FDecode code nanos x part => r ←r job_event_err wa (w_next w) "poll.json.unmarshall" x stk; Ok (r.1, Some r.2, code, nanos, part)
       | FReply code nanos y => Ok (wa, None, code, nanos, y)
       end) = Ok (wb, Some (EUnmuted l), fetch_code f, nanos, part)) as (nanos&part&->).
  { destruct f; try done; destruct Hf as [-> Hx]; rewrite Hx, Hok; cbn; eauto. }
  cbn [rbind]. rewrite bool_decide_eq_true_2 by done.
  cbn [new_map]. set (wc := bump (set_maps wb _)) in *.
  destruct (complete_kv_calls wc (w_next w) jb st Error (Some (w_next wb)) [("host_port", hp)])
    as (w'&cs2&Hok2&Hlog2&[Hc1 Hc2]&_&He).
  { change (w_jobs wb !! w_next w = Some jb). by rewrite (q_jobs _ _ Hq). }
  { change (w_streams wb !! s = Some st). by rewrite (q_streams _ _ Hq). }
  { intros k v Hin%elem_of_list_singleton. injection Hin as -> ->. subst wc. cbn. rewrite lookup_insert. cbn. by rewrite lookup_singleton. }
  rewrite Hok2. cbn [rbind].
  assert (Hl' : w_errs w' !! l = Some (OUnmuted x stk true)) by (rewrite He; exact Hl).
  eexists w', _, cs1, cs2. split; [done|]. cbn [r_hp r_ts r_code r_err]. split; [done|]. split; [done|]. split; [done|].
  split. { cbn. rewrite Hl'. cbn. done. }
  split. { rewrite Hlog2. change (w_log wc) with (w_log wb). rewrite Hlog. by rewrite <-app_assoc. }
  split; (split; [done|]).
  - eapply Forall_impl; [exact Hk2|]. intros c [H1 H2]. split; [done|]. exists l, stk. done.
  - eapply Forall_impl; [exact Hc2|]. cbn. intros c [? [(t&Htt&Hcw) ?]]. split; [done|]. split; [|done].
    exists t. subst wc. cbn in Htt, Hcw. rewrite (q_clock _ _ Hq) in Hcw. rewrite Ht in Htt.
    subst wa. cbn in Htt, Hcw. split; [lia|done].
Qed.
