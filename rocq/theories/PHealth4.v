(** * Proofs about streams, jobs and error reports: notifications and Run *)
From Verif Require Export PHealth3.

(** ** C04 *)
Lemma merged_hidden w st jb inst :
  wf w → levels w st jb inst ≠ 1%nat →
  (merged_key_values w st jb inst).2 = None ∨
  ∃ l, (merged_key_values w st jb inst).2 = Some l ∧ l = w_next w ∧ (l < w_next (merged_key_values w st jb inst).1)%nat.
Proof.
  intros Hwf Hne. destruct (merged_key_values w st jb inst) as [w1 all] eqn:E.
  destruct (merged_cases _ _ _ _ _ _ _ _ _ E) as [(_&->&->)|(Hle&->&_&_)].
  - right. exists (w_next w). cbn. split_and!; try done. lia.
  - left. cbn. unfold merged_key_values, merged_key_values_ord, levels, nonempty in *.
    destruct (bool_decide (kvs w (jb_kvs jb) ≠ ∅)), (bool_decide (kvs w (st_kvs st) ≠ ∅)),
      (bool_decide (kvs w inst ≠ ∅)); cbn in *; try lia. by injection E as <-.
Qed.

Lemma hidden_fresh w w' : wf w → quiet w w' → (w_next w < w_next w')%nat → hidden w' (w_next w).
Proof.
  intros Hwf [Qn Qm Qs Qj Qi Qc] Hlt. split; [done|rewrite Qs|rewrite Qj|rewrite Qi].
  - intros s st Hs Hk. destruct (wf_streams _ Hwf _ _ Hs) as [_ H]. destruct (H _ Hk) as [m Hm].
    apply (wf_maps _ Hwf) in Hm. lia.
  - intros s st Hs Hk. destruct (wf_jobs _ Hwf _ _ Hs) as [_ H]. destruct (H _ Hk) as [m Hm].
    apply (wf_maps _ Hwf) in Hm. lia.
  - intros Hin. destruct (wf_mine _ Hwf _ Hin) as [m Hm]. apply (wf_maps _ Hwf) in Hm. lia.
Qed.

Lemma result_maps w a st jb j inst :
  emission a = Some (j, inst) →
  ∃ w0, w_maps w0 = w_maps w ∧ quiet w w0 ∧ (wf w → wf w0) ∧ (∀ r, kvs w0 r = kvs w r) ∧
    w_maps (result_of w a st jb) = w_maps (merged_key_values w0 st jb inst).1 ∧
    w_next (result_of w a st jb) = w_next (merged_key_values w0 st jb inst).1 ∧
    ∀ cs, w_log (result_of w a st jb) = w_log w ++ cs →
      Forall (λ c, c_kvs c = (merged_key_values w0 st jb inst).2 ∧
        c_view c = kvs (merged_key_values w0 st jb inst).1 (merged_key_values w0 st jb inst).2) cs.
Proof.
  intros He.
  assert (Hs : ∀ p, result_of w a st jb = simple_result w st jb inst p →
    ∃ w0, w_maps w0 = w_maps w ∧ quiet w w0 ∧ (wf w → wf w0) ∧ (∀ r, kvs w0 r = kvs w r) ∧
    w_maps (result_of w a st jb) = w_maps (merged_key_values w0 st jb inst).1 ∧
    w_next (result_of w a st jb) = w_next (merged_key_values w0 st jb inst).1 ∧
    ∀ cs, w_log (result_of w a st jb) = w_log w ++ cs →
      Forall (λ c, c_kvs c = (merged_key_values w0 st jb inst).2 ∧
        c_view c = kvs (merged_key_values w0 st jb inst).1 (merged_key_values w0 st jb inst).2) cs).
  { intros p ->. exists w. split; [done|]. split; [by split|]. do 2 (split; [done|]).
    split; [unfold simple_result; by destruct (merged_key_values w st jb inst)|].
    split; [unfold simple_result; by destruct (merged_key_values w st jb inst)|].
    intros cs Hcs. destruct (simple_log w st jb inst p) as (all&view&Hl&_&->&->).
    rewrite Hl in Hcs. apply app_inv_head in Hcs as <-.
    apply Forall_forall. intros c (k&->&_)%elem_of_list_fmap. done. }
  assert (Hc : ∀ p, result_of w a st jb = complete_result w st jb inst p →
    ∃ w0, w_maps w0 = w_maps w ∧ quiet w w0 ∧ (wf w → wf w0) ∧ (∀ r, kvs w0 r = kvs w r) ∧
    w_maps (result_of w a st jb) = w_maps (merged_key_values w0 st jb inst).1 ∧
    w_next (result_of w a st jb) = w_next (merged_key_values w0 st jb inst).1 ∧
    ∀ cs, w_log (result_of w a st jb) = w_log w ++ cs →
      Forall (λ c, c_kvs c = (merged_key_values w0 st jb inst).2 ∧
        c_view c = kvs (merged_key_values w0 st jb inst).1 (merged_key_values w0 st jb inst).2) cs).
  { intros p ->. exists w. split; [done|]. split; [by split|]. do 2 (split; [done|]).
    split; [unfold complete_result; by destruct (merged_key_values w st jb inst)|].
    split; [unfold complete_result; by destruct (merged_key_values w st jb inst)|].
    intros cs Hcs. destruct (complete_log w st jb inst p) as (all&view&cs'&Hl&_&_&Hf&_&->&->).
    rewrite Hl in Hcs. apply app_inv_head in Hcs as <-.
    eapply Forall_impl; [exact Hf|]. cbn. intros c (_&?&?&_). done. }
  assert (Hr : ∀ ev e s, result_of w a st jb = (err_result w st jb inst ev e s).1 →
    ∃ w0, w_maps w0 = w_maps w ∧ quiet w w0 ∧ (wf w → wf w0) ∧ (∀ r, kvs w0 r = kvs w r) ∧
    w_maps (result_of w a st jb) = w_maps (merged_key_values w0 st jb inst).1 ∧
    w_next (result_of w a st jb) = w_next (merged_key_values w0 st jb inst).1 ∧
    ∀ cs, w_log (result_of w a st jb) = w_log w ++ cs →
      Forall (λ c, c_kvs c = (merged_key_values w0 st jb inst).2 ∧
        c_view c = kvs (merged_key_values w0 st jb inst).1 (merged_key_values w0 st jb inst).2) cs).
  { intros ev e s ->. exists (wrap_err w e s).1. split; [by destruct e|]. split; [apply wrap_quiet|].
    split.
    { intros Hwf. destruct e; cbn; try done; wfsolve Hwf. }
    split; [apply wrap_kvs|].
    assert (Hmn : ∀ x y, w_maps (mark_emitted x y) = w_maps x ∧ w_next (mark_emitted x y) = w_next x).
    { intros x y. unfold mark_emitted. destruct y; try done. by destruct (w_errs x !! l) as [[]|]. }
    split.
    { unfold err_result. destruct (wrap_err w e s) as [w0 e']. cbn.
      destruct (merged_key_values w0 st jb inst) as [w1 all]. cbn. by rewrite (proj1 (Hmn _ _)). }
    split.
    { unfold err_result. destruct (wrap_err w e s) as [w0 e']. cbn.
      destruct (merged_key_values w0 st jb inst) as [w1 all]. cbn. by rewrite (proj2 (Hmn _ _)). }
    intros cs Hcs. destruct (err_log w st jb inst ev e s) as (all&view&Hl&_&->&->).
    rewrite Hl in Hcs. apply app_inv_head in Hcs as <-.
    apply Forall_forall. intros c (k&->&_)%elem_of_list_fmap. done. }
  destruct a; cbn in He; try done; injection He as -> <-; eauto.
Qed.

Lemma kept_kvs w a j inst jb st w1 cs h w2 :
  wf w → emission a = Some (j, inst) → w_jobs w !! j = Some jb → w_streams w !! jb_stream jb = Some st →
  levels w st jb inst ≠ 1%nat → api_step w a = Ok w1 → w_log w1 = w_log w ++ cs →
  api_run w1 h = Ok w2 → Forall (λ c, kvs w2 (c_kvs c) = c_view c) cs.
Proof.
  intros Hwf He Hj Hs Hlv Hw Hl Hrun.
  rewrite (emission_open _ _ _ _ _ _ He Hj Hs) in Hw. injection Hw as <-.
  destruct (result_maps w a st jb j inst He) as (w0&Hm0&Hq0&Hwf0&Hk0&Hm&Hn&Hcs).
  specialize (Hcs _ Hl). eapply Forall_impl; [exact Hcs|]. intros c [Hck Hcv]. rewrite Hck, Hcv.
  assert (Hlv0 : levels w0 st jb inst ≠ 1%nat) by (unfold levels; by rewrite !Hk0).
  destruct (merged_hidden w0 st jb inst (Hwf0 Hwf) Hlv0) as [->|(l&Hsome&Hlw&Hlt)]; [done|].
  rewrite Hsome. cbn.
  assert (Hhid : hidden (result_of w a st jb) l).
  { subst l. destruct (emission_quiet w a st jb) as [E1 E2 E3 E4 E5 E6]. destruct Hq0 as [F1 F2 F3 F4 F5 F6].
    apply hidden_fresh; [by apply Hwf0| |rewrite Hn; lia].
    split; try congruence; [rewrite Hn; lia|].
    intros l Hll. rewrite Hm. destruct (merged_quiet w0 st jb inst) as [_ Q _ _ _ _]. auto. }
  rewrite (hidden_run _ _ _ _ (result_wf _ _ _ _ Hwf) Hhid Hrun). by rewrite Hm.
Qed.

(** ** C05 *)
Lemma text_le w w' e s : errs_le w w' → text_of w e s → text_of w' e s.
Proof.
  intros Hle H. induction H as [|l e s Hl _ IH|l e st b s Hl _ IH].
  - constructor.
  - destruct (Hle _ _ Hl) as (o&Ho&[->|(x&y&z&?&_)]); [|done]. by econstructor.
  - destruct (Hle _ _ Hl) as (o&Ho&[->|(x&y&z&E&->)]); [by econstructor|].
    injection E as <- <- <-. by econstructor.
Qed.

Lemma report_kv w lv e :
  ∃ ev i s, report w lv e = job_event_err_kv w (level_job lv) ev e i s ∧ ev = level_event lv.
Proof. destruct lv as [j ev s|j ev i s]; cbn; eauto. Qed.

Lemma report_open w lv e jb st :
  w_jobs w !! level_job lv = Some jb → w_streams w !! jb_stream jb = Some st →
  ∃ i s, report w lv e = Ok (err_result w st jb i (level_event lv) e s).
Proof.
  intros Hj Hs. destruct (report_kv w lv e) as (ev&i&s&->&->). exists i, s. by apply err_open.
Qed.

Lemma report_inv w lv e w1 e1 :
  report w lv e = Ok (w1, e1) →
  ∃ jb st i s, w_jobs w !! level_job lv = Some jb ∧ w_streams w !! jb_stream jb = Some st ∧
    (w1, e1) = err_result w st jb i (level_event lv) e s.
Proof.
  intros H. destruct (report_kv w lv e) as (ev&i&s&E&->). rewrite E in H.
  assert (∃ jb st, w_jobs w !! level_job lv = Some jb ∧ w_streams w !! jb_stream jb = Some st) as (jb&st&Hj&Hs).
  { unfold job_event_err_kv in H. destruct (wrap_same w e s) as [H1 H2].
    destruct (wrap_err w e s) as [w0 e']. cbn in H1, H2. rewrite <-H1, <-H2. by eapply with_job_kvs_inv. }
  exists jb, st, i, s. split; [done|]. split; [done|].
  rewrite (err_open w _ jb st Hj Hs) in H. by injection H.
Qed.

Lemma mark_sets w e l :
  e = EUnmuted l → valid w e →
  ∃ x st, w_errs (mark_emitted w e) !! l = Some (OUnmuted x st true).
Proof. intros -> (x&st&b&H). cbn. rewrite H. cbn. rewrite lookup_insert. eauto. Qed.

Lemma wrap_valid w e s : valid w e → valid (wrap_err w e s).1 (wrap_err w e s).2.
Proof. destruct e; cbn; try done; intros _; rewrite lookup_insert; eauto. Qed.

Lemma report_spec w lv e w1 e1 :
  wf w → valid w e → report w lv e = Ok (w1, e1) →
  reported w w1 e e1 ∧ (∀ s, text_of w e s → text_of w1 e1 s) ∧
  (∀ l, e1 = EUnmuted l → ∃ x st, w_errs w1 !! l = Some (OUnmuted x st true)).
Proof.
  intros Hwf Hv H. destruct (report_inv _ _ _ _ _ H) as (jb&st&i&s&Hj&Hs&E).
  pose proof (reported_err w st jb i (level_event lv) e s Hwf) as Hr.
  pose proof (err_result_snd w st jb i (level_event lv) e s) as H2. rewrite <-E in H2. cbn in H2.
  pose proof (err_result_errs w st jb i (level_event lv) e s) as H3. rewrite <-E in H3. cbn in H3.
  rewrite <-E in Hr. cbn in Hr. rewrite <-H2 in Hr. split; [done|]. split.
  - intros t Ht. pose proof (err_le w st jb i (level_event lv) e s Hwf) as Hle. rewrite <-E in Hle. cbn in Hle.
    unfold reported in Hr. destruct (is_wrapped e) eqn:Ew.
    + subst e1. by eapply text_le.
    + destruct Hr as (l&stk&->&_&Hl). econstructor; [exact Hl|]. by eapply text_le.
  - intros l ->. rewrite H3, <-H2. eapply mark_sets; [done|]. rewrite H2. by apply wrap_valid.
Qed.

(** ** C06: the Bugsnag queue *)
Lemma queue_app b l1 l2 : bugsnag_queue b (l1 ++ l2) = bugsnag_queue b l1 ++ bugsnag_queue b l2.
Proof. apply omap_app. Qed.
Lemma notified_app b l l1 l2 : notified b l (l1 ++ l2) = notified b l l1 ++ notified b l l2.
Proof. unfold notified. by rewrite queue_app, filter_app. Qed.

Lemma queue_none b cs : Forall (λ c, bugsnag_emit c = None) cs → bugsnag_queue b cs = [].
Proof.
  induction 1 as [|c cs Hc _ IH]; [done|]. unfold bugsnag_queue in *. cbn. rewrite Hc, IH.
  by destruct (bool_decide _).
Qed.

Lemma queue_calls b (f : nat → call) ks c :
  (∀ k, c_sink (f k) = k) → (∀ k, bugsnag_emit (f k) = Some c) →
  bugsnag_queue b (map f ks) = replicate (count_occ Nat.eq_dec ks b) c.
Proof.
  intros H1 H2. unfold bugsnag_queue. induction ks as [|k ks IH]; [done|]. cbn. rewrite H1, H2, IH.
  destruct (Nat.eq_dec k b) as [->|Hne].
  - by rewrite bool_decide_eq_true_2.
  - by rewrite bool_decide_eq_false_2.
Qed.

Lemma report_log w lv e w1 e1 :
  wf w → report w lv e = Ok (w1, e1) →
  ∃ jb st new flag, w_jobs w !! level_job lv = Some jb ∧ w_streams w !! jb_stream jb = Some st ∧
    w_log w1 = w_log w ++ new ∧ was_emitted w e flag ∧
    (∀ b l, e1 = EUnmuted l → flag = false → ∃ kv, bugsnag_queue b new =
        replicate (count_occ Nat.eq_dec (st_sinks st) b) (BCmd (jb_name jb) (level_event lv) l kv)) ∧
    (∀ b, flag = true → bugsnag_queue b new = []) ∧
    (∀ b l, e1 = EMuted l → bugsnag_queue b new = []) ∧
    (∀ b l, e1 ≠ EUnmuted l → notified b l new = []).
Proof.
  intros Hwf H. destruct (report_inv _ _ _ _ _ H) as (jb&st&i&s&Hj&Hs&E).
  destruct (err_log w st jb i (level_event lv) e s) as (all&view&Hl&_).
  pose proof (err_result_snd w st jb i (level_event lv) e s) as H2. rewrite <-E in H2. cbn in H2.
  rewrite <-E in Hl. cbn in Hl. pose proof (wrap_emitted w e s Hwf) as Hem. rewrite <-H2 in *.
  generalize dependent (emitted (wrap_err w e s).1 e1). intros flag Hl Hem.
  eexists jb, st, _, flag. split; [done|]. split; [done|]. split; [exact Hl|]. split; [done|].
  split_and!.
  - intros b l -> Hf. exists all. apply queue_calls; [done|]. intros k. unfold bugsnag_emit. cbn. by rewrite Hf.
  - intros b Hf. apply queue_none. apply Forall_forall. intros c (k&->&_)%elem_of_list_fmap.
    unfold bugsnag_emit. cbn. rewrite Hf. by destruct e1.
  - intros b l ->. apply queue_none. by apply Forall_forall; intros c (k&->&_)%elem_of_list_fmap.
  - intros b l Hne. unfold notified.
    destruct e1 as [|id t|l1|l1]; try (rewrite queue_none; [done|]; by apply Forall_forall; intros c (k&->&_)%elem_of_list_fmap).
    destruct flag eqn:Hf.
    + rewrite queue_none; [done|]. by apply Forall_forall; intros c (k&->&_)%elem_of_list_fmap.
    + rewrite (queue_calls b _ (st_sinks st) (BCmd (jb_name jb) (level_event lv) l1 all)) by done.
      induction (count_occ Nat.eq_dec (st_sinks st) b); [done|]. cbn. rewrite decide_False; [done|].
      cbn. congruence.
Qed.

(** the reporting calls of the API are reports *)
Definition as_level (a : api) : option (level * errv) :=
  match a with
  | ApiEventErr j ev e s => Some (LErr j ev s, e)
  | ApiEventErrKv j ev e i s => Some (LErrKv j ev i s, e)
  | _ => None
  end.
Lemma as_level_step w a lv e w' :
  as_level a = Some (lv, e) → api_step w a = Ok w' → ∃ e1, report w lv e = Ok (w', e1).
Proof.
  intros Ha Hw. destruct a; cbn in Ha; try done; injection Ha as <- <-; cbn in Hw |- *.
  - destruct (job_event_err w j event e0 stack) as [[w1 e1]|]; [|done]. injection Hw as <-. eauto.
  - destruct (job_event_err_kv w j event e0 inst stack) as [[w1 e1]|]; [|done]. injection Hw as <-. eauto.
Qed.

Lemma other_log w a w' :
  no_report a → api_step w a = Ok w' → ∃ new, w_log w' = w_log w ++ new ∧ ∀ b, bugsnag_queue b new = [].
Proof.
  intros Hn Hw. destruct (emission a) as [[j inst]|] eqn:He.
  - destruct (emission_inv _ _ _ _ _ He Hw) as (jb&st&Hj&Hs&->).
    assert (Hsimple : ∀ p, (∀ k n all v, bugsnag_emit (Call k n p all v) = None) →
      ∃ new, w_log (simple_result w st jb inst p) = w_log w ++ new ∧ ∀ b, bugsnag_queue b new = []).
    { intros p Hp. destruct (simple_log w st jb inst p) as (all&view&Hl&_). eexists. split; [exact Hl|].
      intros b. apply queue_none. by apply Forall_forall; intros c (k&->&_)%elem_of_list_fmap. }
    assert (Hcomplete : ∀ p, ∃ new, w_log (complete_result w st jb inst p) = w_log w ++ new ∧ ∀ b, bugsnag_queue b new = []).
    { intros p. destruct (complete_log w st jb inst p) as (all&view&cs&Hl&_&_&Hf&_). exists cs. split; [exact Hl|].
      intros b. apply queue_none. eapply Forall_impl; [exact Hf|]. cbn. intros c (_&_&_&t&_&Hc).
      unfold bugsnag_emit. by rewrite Hc. }
    destruct a; cbn in He; try done; injection He as -> <-; cbn in Hn; try done; cbn; eauto.
  - exists []. rewrite app_nil_r. split; [by eapply silent_log|done].
Qed.

Lemma errs_true w w' l x st : errs_le w w' → w_errs w !! l = Some (OUnmuted x st true) → w_errs w' !! l = Some (OUnmuted x st true).
Proof. intros Hle H. destruct (Hle _ _ H) as (o&Ho&[->|(e&s&b&E&->)]); [done|]. injection E as -> -> <-. done. Qed.

(** a reported error is never notified again *)
Lemma step_no_more w a w' l x st b :
  wf w → w_errs w !! l = Some (OUnmuted x st true) → api_step w a = Ok w' →
  ∃ new, w_log w' = w_log w ++ new ∧ notified b l new = [].
Proof.
  intros Hwf Hl Hw. destruct (as_level a) as [[lv e]|] eqn:Ha.
  - destruct (as_level_step _ _ _ _ _ Ha Hw) as [e1 Hr].
    destruct (report_log _ _ _ _ _ Hwf Hr) as (jb&st'&new&flag&_&_&Hlog&Hem&_&Hq2&_&Hq4).
    exists new. split; [done|].
    destruct (decide (e1 = EUnmuted l)) as [->|Hne]; [|by apply Hq4].
    assert (Hf : flag = true).
    { destruct (report_inv _ _ _ _ _ Hr) as (jb2&st2&i&s&_&_&E).
      pose proof (err_result_snd w st2 jb2 i (level_event lv) e s) as H2. rewrite <-E in H2. cbn in H2.
      destruct e; cbn in H2; try done.
      - injection H2 as ->. apply (wf_errs _ Hwf) in Hl. lia.
      - injection H2 as ->. apply (wf_errs _ Hwf) in Hl. lia.
      - injection H2 as <-. cbn in Hem. rewrite Hl in Hem. done. }
    unfold notified. by rewrite (Hq2 b Hf).
  - destruct (other_log w a w') as (new&H1&H2); [by destruct a|done|]. exists new. split; [done|].
    unfold notified. by rewrite H2.
Qed.

Lemma report_as_step w lv e w1 e1 : report w lv e = Ok (w1, e1) → ∃ a, as_level a = Some (lv, e) ∧ api_step w a = Ok w1.
Proof.
  intros H. destruct lv as [j ev s|j ev i s].
  - exists (ApiEventErr j ev e s). split; [done|]. cbn in *. by rewrite H.
  - exists (ApiEventErrKv j ev e i s). split; [done|]. cbn in *. by rewrite H.
Qed.
Lemma report_wf w lv e w1 e1 : wf w → report w lv e = Ok (w1, e1) → wf w1 ∧ errs_le w w1.
Proof. intros Hwf H. destruct (report_as_step _ _ _ _ _ H) as (a&_&Ha). destruct (step_wf _ _ _ Hwf Ha) as (?&?&_). done. Qed.

Lemma report_returned w lv e w1 e1 : is_wrapped e = true → report w lv e = Ok (w1, e1) → e1 = e.
Proof.
  intros He H. destruct (report_inv _ _ _ _ _ H) as (jb&st&i&s&_&_&E).
  pose proof (err_result_snd w st jb i (level_event lv) e s) as H2. rewrite <-E in H2. cbn in H2. by destruct e.
Qed.

Lemma chain_emitted ok w e ls w' e' b l x st :
  chain ok w e ls w' e' → wf w → e = EUnmuted l → w_errs w !! l = Some (OUnmuted x st true) →
  e' = e ∧ w_errs w' !! l = Some (OUnmuted x st true) ∧ ∃ new, w_log w' = w_log w ++ new ∧ notified b l new = [] ∧
    ((∀ a, ok a → no_report a) → bugsnag_queue b new = []).
Proof.
  intros H. induction H as [w e|w a w1 e ls w' e' Hok Ha _ IH|w e lv w1 e1 ls w' e' Hr _ IH]; intros Hwf -> Hl.
  - split; [done|]. split; [done|]. exists []. by rewrite app_nil_r.
  - destruct (step_wf _ _ _ Hwf Ha) as (Hwf1&Hle&_).
    destruct (IH Hwf1 eq_refl (errs_true _ _ _ _ _ Hle Hl)) as (->&Hl'&new&Hlog&Hn&Hq).
    split; [done|]. split; [done|].
    destruct (step_no_more _ _ _ _ _ _ b Hwf Hl Ha) as (new1&Hlog1&Hn1).
    exists (new1 ++ new). split; [by rewrite Hlog, Hlog1, app_assoc|]. split; [by rewrite notified_app, Hn1, Hn|].
    intros Hno. rewrite queue_app, (Hq Hno), app_nil_r.
    destruct (other_log _ _ _ (Hno _ Hok) Ha) as (new2&Hlog2&Hq2). rewrite Hlog1 in Hlog2.
    apply app_inv_head in Hlog2 as ->. apply Hq2.
  - destruct (report_wf _ _ _ _ _ Hwf Hr) as [Hwf1 Hle].
    pose proof (report_returned _ _ (EUnmuted l) _ _ eq_refl Hr) as ->.
    destruct (IH Hwf1 eq_refl (errs_true _ _ _ _ _ Hle Hl)) as (->&Hl'&new&Hlog&Hn&Hq).
    split; [done|]. split; [done|].
    destruct (report_log _ _ _ _ _ Hwf Hr) as (jb&st'&new1&flag&_&_&Hlog1&Hem&_&Hq2&_&_).
    cbn in Hem. rewrite Hl in Hem. specialize (Hq2 b Hem).
    exists (new1 ++ new). split; [by rewrite Hlog, Hlog1, app_assoc|].
    split; [rewrite notified_app, Hn; unfold notified; by rewrite Hq2|].
    intros Hno. by rewrite queue_app, (Hq Hno), Hq2.
Qed.

Lemma chain_muted ok w e ls w' e' b l :
  chain ok w e ls w' e' → wf w → e = EMuted l → (∀ a, ok a → no_report a) →
  e' = e ∧ ∃ new, w_log w' = w_log w ++ new ∧ bugsnag_queue b new = [].
Proof.
  intros H. induction H as [w e|w a w1 e ls w' e' Hok Ha _ IH|w e lv w1 e1 ls w' e' Hr _ IH]; intros Hwf -> Hno.
  - split; [done|]. exists []. by rewrite app_nil_r.
  - destruct (step_wf _ _ _ Hwf Ha) as (Hwf1&Hle&_).
    destruct (IH Hwf1 eq_refl Hno) as (->&new&Hlog&Hq). split; [done|].
    destruct (other_log _ _ _ (Hno _ Hok) Ha) as (new1&Hlog1&Hq1).
    exists (new1 ++ new). split; [by rewrite Hlog, Hlog1, app_assoc|]. by rewrite queue_app, Hq1, Hq.
  - destruct (report_wf _ _ _ _ _ Hwf Hr) as [Hwf1 Hle].
    pose proof (report_returned _ _ (EMuted l) _ _ eq_refl Hr) as ->.
    destruct (IH Hwf1 eq_refl Hno) as (->&new&Hlog&Hq). split; [done|].
    destruct (report_log _ _ _ _ _ Hwf Hr) as (jb&st'&new1&flag&_&_&Hlog1&_&_&_&Hq3&_).
    exists (new1 ++ new). split; [by rewrite Hlog, Hlog1, app_assoc|]. by rewrite queue_app, (Hq3 b l eq_refl), Hq.
Qed.

Lemma first_report w lv e w1 e1 jb st b :
  wf w → is_wrapped e = false → w_jobs w !! level_job lv = Some jb → w_streams w !! jb_stream jb = Some st →
  count_occ Nat.eq_dec (st_sinks st) b = 1%nat → report w lv e = Ok (w1, e1) →
  ∃ l s new kv, e1 = EUnmuted l ∧ w_errs w1 !! l = Some (OUnmuted e s true) ∧ w_log w1 = w_log w ++ new ∧
    bugsnag_queue b new = [BCmd (jb_name jb) (level_event lv) l kv] ∧
    notified b l new = [BCmd (jb_name jb) (level_event lv) l kv].
Proof.
  intros Hwf He Hj Hs Hb Hr.
  destruct (report_spec w lv e w1 e1 Hwf) as (Hrep&_&_); [by destruct e|done|].
  unfold reported in Hrep. rewrite He in Hrep. destruct Hrep as (l&s&->&_&Hl).
  destruct (report_log _ _ _ _ _ Hwf Hr) as (jb'&st'&new&flag&Hj'&Hs'&Hlog&Hem&Hq1&_).
  rewrite Hj in Hj'. injection Hj' as <-. rewrite Hs in Hs'. injection Hs' as <-.
  assert (Hf : flag = false) by (by destruct e).
  destruct (Hq1 b l eq_refl Hf) as [kv Hq]. rewrite Hb in Hq. cbn in Hq.
  exists l, s, new, kv. split_and!; try done. unfold notified. rewrite Hq. cbn. by rewrite decide_True.
Qed.

(** ** Jobs and streams persist *)
Definition keeps (w w' : world) : Prop :=
  (∀ j jb, w_jobs w !! j = Some jb → ∃ jb', w_jobs w' !! j = Some jb' ∧ jb_name jb' = jb_name jb ∧
     jb_stream jb' = jb_stream jb ∧ jb_start jb' = jb_start jb) ∧
  (∀ s st, w_streams w !! s = Some st → ∃ st', w_streams w' !! s = Some st').

Lemma keeps_refl w : keeps w w.
Proof. split; eauto 10. Qed.
Lemma keeps_trans a b c : keeps a b → keeps b c → keeps a c.
Proof.
  intros [J1 S1] [J2 S2]. split.
  - intros j jb H. destruct (J1 _ _ H) as (jb1&Hb&?&?&?). destruct (J2 _ _ Hb) as (jb2&Hc&?&?&?).
    exists jb2. split_and!; congruence.
  - intros s st H. destruct (S1 _ _ H) as (s1&H1). eauto.
Qed.

Lemma step_keeps w a w' : wf w → api_step w a = Ok w' → keeps w w'.
Proof.
  intros Hwf Hw. destruct (emission a) as [[j inst]|] eqn:He.
  { destruct (emission_inv _ _ _ _ _ He Hw) as (jb&st&Hj&Hs&->).
    destruct (emission_quiet w a st jb) as [_ _ H3 H4 _ _]. split; rewrite ?H3, ?H4; eauto 10. }
  destruct a; cbn in He; try done; cbn in Hw.
  - injection Hw as <-. split; cbn; intros i x Hi.
    + pose proof (wf_jobs _ Hwf _ _ Hi) as [? _]. rewrite lookup_insert_ne by lia. eauto 10.
    + pose proof (wf_streams _ Hwf _ _ Hi) as [? _]. rewrite lookup_insert_ne by lia. eauto 10.
  - unfold add_sink in Hw. destruct (w_streams w !! s) as [st|] eqn:Es; [|done]. injection Hw as <-.
    split; cbn; [eauto 10|]. intros i x Hi. destruct (decide (s = i)) as [<-|]; [rewrite lookup_insert|rewrite lookup_insert_ne by done]; eauto.
  - unfold stream_key_value in Hw. destruct (w_streams w !! s) as [st|] eqn:Es; [|done].
    destruct (st_kvs st); injection Hw as <-; split; cbn; eauto 10.
    intros i x Hi. destruct (decide (s = i)) as [<-|]; [rewrite lookup_insert|rewrite lookup_insert_ne by done]; eauto.
  - injection Hw as <-. split; cbn; [|eauto]. intros i x Hi.
    pose proof (wf_jobs _ Hwf _ _ Hi) as [? _]. rewrite lookup_insert_ne by lia. eauto 10.
  - unfold job_key_value in Hw. destruct (w_jobs w !! j) as [st|] eqn:Es; [|done].
    destruct (jb_kvs st); injection Hw as <-; split; cbn; eauto 10.
    intros i x Hi. destruct (decide (j = i)) as [<-|]; [rewrite lookup_insert|rewrite lookup_insert_ne by done; eauto 10].
    rewrite Es in Hi. injection Hi as <-. eauto 10.
  - injection Hw as <-. split; cbn; eauto 10.
  - case_bool_decide; injection Hw as <-; split; cbn; eauto 10.
  - injection Hw as <-. split; cbn; eauto 10.
Qed.
Lemma run_keeps w h w' : wf w → api_run w h = Ok w' → keeps w w'.
Proof.
  revert w. induction h as [|a h IH]; intros w Hwf; cbn [api_run]; intros H.
  - injection H as <-. apply keeps_refl.
  - destruct (api_step w a) as [w1|] eqn:E; [|done]. cbn in H.
    eapply keeps_trans; [by eapply step_keeps|]. eapply IH; [by eapply step_wf|done].
Qed.

(** ** C07: Run *)
Lemma err_ticks w st jb inst ev e s : w_ticks (err_result w st jb inst ev e s).1 = w_ticks w.
Proof.
  unfold err_result. assert (Ht : w_ticks (wrap_err w e s).1 = w_ticks w) by (by destruct e).
  destruct (wrap_err w e s) as [w0 e']. destruct (merged_key_values w0 st jb inst) as [w1 all] eqn:E.
  cbn [fst snd]. rewrite mark_ticks. destruct (merged_same _ _ _ _ _ _ E) as (_&_&_&_&_&Htk&_).
  cbn in *. congruence.
Qed.
Lemma complete_calls w j jb st status :
  w_jobs w !! j = Some jb → w_streams w !! jb_stream jb = Some st →
  ∃ w' cs, job_complete w j status = Ok w' ∧ w_log w' = w_log w ++ cs ∧
    calls_to (st_sinks st) (jb_name jb) (completion w (jb_start jb) status) cs ∧
    w_errs w' = w_errs w ∧ (∀ b, bugsnag_queue b cs = []) ∧ quiet w w'.
Proof.
  intros Hj Hs. destruct (kv_forms w j) as (_&_&_&_&->). rewrite (complete_open w j jb st Hj Hs).
  destruct (complete_log w st jb None status) as (all&view&cs&Hl&Hk&Ht&Hf&_).
  eexists _, cs. split; [done|]. split; [exact Hl|]. split.
  { split; [done|]. eapply Forall_impl; [exact Hf|]. cbn. intros c (H1&_&_&t&Htt&Hc). split; [done|].
    exists t. split; [lia|done]. }
  split.
  { unfold complete_result. destruct (merged_key_values w st jb None) as [w1 all1] eqn:E.
    by destruct (merged_same _ _ _ _ _ _ E) as [? _]. }
  split; [|apply complete_quiet].
  intros b. apply queue_none. eapply Forall_impl; [exact Hf|]. cbn. intros c (_&_&_&t&_&Hc).
  unfold bugsnag_emit. by rewrite Hc.
Qed.

Lemma run_returns w j f eid stxt stk w1 e jb st :
  f w = (w1, ORet e) → w_jobs w1 !! j = Some jb → w_streams w1 !! jb_stream jb = Some st →
  ∃ w' cs, job_run w j f eid stxt stk = Ok (w', Returned e) ∧ w_log w' = w_log w1 ++ cs ∧
    calls_to (st_sinks st) (jb_name jb) (completion w1 (jb_start jb) (if decide (e = ENil) then 0 else 3)) cs.
Proof.
  intros Hf Hj Hs. unfold job_run. rewrite Hf. case_bool_decide as He.
  - destruct (complete_calls w1 j jb st Error Hj Hs) as (w'&cs&->&Hl&Hc&_).
    exists w', cs. rewrite decide_False by done. done.
  - assert (e = ENil) as -> by (by destruct e).
    destruct (complete_calls w1 j jb st Success Hj Hs) as (w'&cs&->&Hl&Hc&_).
    exists w', cs. done.
Qed.

Lemma run_panics w j f eid stxt stk w1 text jb st :
  f w = (w1, OPanic text) → w_jobs w1 !! j = Some jb → w_streams w1 !! jb_stream jb = Some st →
  ∃ w' cs1 cs2, job_run w j f eid stxt stk = Ok (w', Returned (EUser eid text)) ∧ w_log w' = w_log w1 ++ cs1 ++ cs2 ∧
    calls_to (st_sinks st) (jb_name jb) (panic_event w' text stxt) cs1 ∧
    calls_to (st_sinks st) (jb_name jb) (completion w1 (jb_start jb) 2) cs2 ∧
    (∀ b, ∃ l kv, bugsnag_queue b (cs1 ++ cs2) =
       replicate (count_occ Nat.eq_dec (st_sinks st) b) (BCmd (jb_name jb) "panic" l kv)) ∧
    w_jobs w' = w_jobs w1 ∧ w_streams w' = w_streams w1 ∧ (wf w1 → wf w').
Proof.
  intros Hf Hj Hs. unfold job_run. rewrite Hf.
  set (w2 := (new_map w1 {["stack" := stxt]}).1). cbn [new_map].
  assert (Hk : kvs w2 (Some (w_next w1)) = {["stack" := stxt]}) by (cbn; by rewrite lookup_insert).
  change (bump (set_maps w1 (<[w_next w1:={["stack" := stxt]}]> (w_maps w1)))) with w2.
  assert (Hj2 : w_jobs w2 !! j = Some jb) by done. assert (Hs2 : w_streams w2 !! jb_stream jb = Some st) by done.
  rewrite (err_open w2 j jb st Hj2 Hs2). cbn [rbind].
  destruct (err_log w2 st jb (Some (w_next w1)) "panic" (EUser eid text) stk) as (all&view&Hl&Hv&_).
  pose proof (err_result_errs w2 st jb (Some (w_next w1)) "panic" (EUser eid text) stk) as Herr.
  destruct (err_quiet w2 st jb (Some (w_next w1)) "panic" (EUser eid text) stk) as [Q1 Q2 Q3 Q4 Q5 Q6].
  assert (Hwf3 : wf w2 → wf (err_result w2 st jb (Some (w_next w1)) "panic" (EUser eid text) stk).1).
  { intros Hwf2. apply (result_wf w2 (ApiEventErrKv j "panic" (EUser eid text) (Some (w_next w1)) stk) st jb Hwf2). }
  assert (Ht3 : w_ticks (err_result w2 st jb (Some (w_next w1)) "panic" (EUser eid text) stk).1 = w_ticks w1).
  { by rewrite err_ticks. }
  set (w3 := (err_result w2 st jb (Some (w_next w1)) "panic" (EUser eid text) stk).1) in *.
  assert (Hj3 : w_jobs w3 !! j = Some jb) by (rewrite Q4; done).
  assert (Hs3 : w_streams w3 !! jb_stream jb = Some st) by (rewrite Q3; done).
  destruct (complete_calls w3 j jb st Panic Hj3 Hs3) as (w'&cs&Hok&Hlog&[Hc1 Hc2]&He&Hqc&Hq).
  rewrite Hok. cbn [rbind].
  eexists w', _, cs. split; [done|]. split; [rewrite Hlog, Hl, <-app_assoc; reflexivity|].
  cbn [wrap_err fst snd] in *. set (l := w_next w2) in *.
  assert (Hl' : w_errs w' !! l = Some (OUnmuted (EUser eid text) stk true)).
  { rewrite He, Herr. cbn. rewrite lookup_insert. cbn. by rewrite lookup_insert. }
  assert (Hem : emitted (bump (set_errs w2 (<[l:=OUnmuted (EUser eid text) stk false]> (w_errs w2)))) (EUnmuted l) = false).
  { cbn. by rewrite lookup_insert. }
  rewrite Hem.
  split_and!.
  - split; [rewrite map_map; apply map_id|]. apply Forall_forall. intros c (k&->&_)%elem_of_list_fmap. cbn.
    split; [done|]. exists l, eid, stk. split; [done|]. split; [done|].
    rewrite Hv. unfold lookup_levels. rewrite Hk. by rewrite lookup_singleton.
  - split; [done|]. eapply Forall_impl; [exact Hc2|]. cbn. intros c [H1 (t&Htt&Hc)]. split; [done|].
    exists t. rewrite Ht3 in Htt. split; [done|]. rewrite Hc, Q6. done.
  - intros b. exists l, all. rewrite queue_app, Hqc, app_nil_r. by apply queue_calls.
  - destruct Hq as [_ _ _ -> _ _]. by rewrite Q4.
  - destruct Hq as [_ _ -> _ _ _]. by rewrite Q3.
  - intros Hwf1. assert (Hwf2 : wf w2) by (unfold w2; cbn; wfsolve Hwf1).
    specialize (Hwf3 Hwf2). eapply (step_wf w3 (ApiComplete j Panic)); [done|exact Hok].
Qed.
