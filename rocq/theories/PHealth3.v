(** * Proofs about streams, jobs and error reports: histories *)
From Verif Require Export PHealth2.

Lemma api_run_app w h1 h2 : api_run w (h1 ++ h2) = w1 ←r api_run w h1; api_run w1 h2.
Proof.
  revert w; induction h1 as [|a h1 IH]; intros w; [done|]. cbn. destruct (api_step w a); [|done]. cbn. apply IH.
Qed.

(** ** Every step keeps the invariant and only raises flags *)
Lemma kvs_some w l m : w_maps w !! l = Some m → kvs w (Some l) = m.
Proof. intros H. cbn. by rewrite H. Qed.

Ltac inslook :=
  repeat match goal with
  | H : <[?i := _]> _ !! ?j = Some _ |- _ =>
      destruct (decide (i = j)) as [?|?]; [subst; rewrite lookup_insert in H; injection H as <-
                                          |rewrite lookup_insert_ne in H by done]
  end.
Lemma is_Some_insert {A} (m : gmap nat A) i x l : is_Some (m !! l) → is_Some (<[i := x]> m !! l).
Proof. intros H. destruct (decide (i = l)) as [->|]; [rewrite lookup_insert|rewrite lookup_insert_ne by done]; eauto. Qed.
Lemma is_Some_here {A} (m : gmap nat A) i x : is_Some (<[i := x]> m !! i).
Proof. rewrite lookup_insert. eauto. Qed.

Ltac wfsolve Hwf :=
  split; cbn; intros;
  repeat match goal with
  | H : context [_ !! _] |- _ => progress inslook
  end; cbn in *;
  repeat match goal with
  | H : w_maps _ !! _ = Some _ |- _ => apply (wf_maps _ Hwf) in H
  | H : w_errs _ !! _ = Some _ |- _ => apply (wf_errs _ Hwf) in H
  | H : w_streams _ !! _ = Some _ |- _ => apply (wf_streams _ Hwf) in H as [? ?]
  | H : w_jobs _ !! _ = Some _ |- _ => apply (wf_jobs _ Hwf) in H as [? ?]
  | H : _ ∈ w_mine _ |- _ => apply (wf_mine _ Hwf) in H
  end;
  repeat match goal with
  | |- _ ∧ _ => split
  | |- ∀ _, _ => intro
  | H : Some _ = Some _ |- _ => injection H as <-
  | H : None = Some _ |- _ => discriminate H
  | H : _ ∈ _ :: _ |- _ => apply elem_of_cons in H as [->|H]
  end;
  repeat match goal with
  | H : _ ∈ w_mine _ |- _ => apply (wf_mine _ Hwf) in H
  end;
  try lia; auto using is_Some_insert, is_Some_here.

Lemma step_wf w a w' : wf w → api_step w a = Ok w' → wf w' ∧ errs_le w w' ∧ (w_next w ≤ w_next w')%nat.
Proof.
  intros Hwf Hw. destruct (emission a) as [[j inst]|] eqn:He.
  { destruct (emission_inv _ _ _ _ _ He Hw) as (jb&st&Hj&Hs&->). split; [by apply result_wf|]. split; [|by destruct (emission_quiet w a st jb)].
    assert (Hsimple : ∀ p, errs_le w (simple_result w st jb inst p)).
    { intros p. apply errs_le_eq. unfold simple_result. destruct (merged_key_values w st jb inst) as [w1 all] eqn:E.
      by destruct (merged_same _ _ _ _ _ _ E) as [? _]. }
    assert (Hcomplete : ∀ p, errs_le w (complete_result w st jb inst p)).
    { intros p. apply errs_le_eq. unfold complete_result. destruct (merged_key_values w st jb inst) as [w1 all] eqn:E.
      by destruct (merged_same _ _ _ _ _ _ E) as [? _]. }
    destruct a; cbn in He; try done; injection He as -> <-; cbn; eauto; by apply err_le. }
  destruct a; cbn in He; try done; cbn in Hw.
  - injection Hw as <-. split; [|split; [by apply errs_le_eq|cbn; lia]]. wfsolve Hwf.
  - unfold add_sink in Hw. destruct (w_streams w !! s) as [st|] eqn:Es; [|done]. injection Hw as <-.
    split; [|split; [by apply errs_le_eq|cbn; lia]]. destruct (wf_streams _ Hwf _ _ Es). wfsolve Hwf.
  - unfold stream_key_value in Hw. destruct (w_streams w !! s) as [st|] eqn:Es; [|done].
    destruct (wf_streams _ Hwf _ _ Es) as [Hs1 Hs2].
    destruct (st_kvs st) as [l|] eqn:El; injection Hw as <-; (split; [|split; [by apply errs_le_eq|cbn; lia]]).
    + destruct (Hs2 _ eq_refl) as [ml Hml]. pose proof (wf_maps _ Hwf _ _ Hml). wfsolve Hwf.
    + wfsolve Hwf.
  - injection Hw as <-. split; [|split; [by apply errs_le_eq|cbn; lia]]. wfsolve Hwf.
  - unfold job_key_value in Hw. destruct (w_jobs w !! j) as [st|] eqn:Es; [|done].
    destruct (wf_jobs _ Hwf _ _ Es) as [Hs1 Hs2].
    destruct (jb_kvs st) as [l|] eqn:El; injection Hw as <-; (split; [|split; [by apply errs_le_eq|cbn; lia]]).
    + destruct (Hs2 _ eq_refl) as [ml Hml]. pose proof (wf_maps _ Hwf _ _ Hml). wfsolve Hwf.
    + wfsolve Hwf.
  - injection Hw as <-. split; [|split; [by apply errs_le_eq|cbn; lia]]. wfsolve Hwf.
  - case_bool_decide as Hin; injection Hw as <-; [|split; [done|split; [apply errs_le_refl|done]]].
    split; [|split; [by apply errs_le_eq|cbn; lia]].
    destruct (wf_mine _ Hwf _ Hin) as [ml Hml]. pose proof (wf_maps _ Hwf _ _ Hml). wfsolve Hwf.
  - injection Hw as <-. split; [|split; [by eapply errs_le_fresh|cbn; lia]]. wfsolve Hwf.
Qed.

Lemma run_wf w h w' : wf w → api_run w h = Ok w' → wf w' ∧ errs_le w w' ∧ (w_next w ≤ w_next w')%nat.
Proof.
  revert w. induction h as [|a h IH]; intros w Hwf; cbn; intros H.
  - injection H as <-. split; [done|]. split; [apply errs_le_refl|lia].
  - destruct (api_step w a) as [w1|] eqn:E; [|done]. cbn in H.
    destruct (step_wf _ _ _ Hwf E) as (H1&H2&H3). destruct (IH _ H1 H) as (H4&H5&H6).
    split; [done|]. split; [by eapply errs_le_trans|lia].
Qed.
Lemma reachable_wf w : reachable w → wf w.
Proof. intros (c&h&H). by destruct (run_wf _ _ _ (wf_world0 c) H) as [? _]. Qed.

(** ** Sinks attached *)
Definition sinks_of (w : world) (s : nat) : list nat := from_option st_sinks [] (w_streams w !! s).

Lemma attached_app s h1 h2 : attached s (h1 ++ h2) = attached s h1 ++ attached s h2.
Proof. unfold attached. apply omap_app. Qed.

Lemma step_sinks w a w' s : wf w → api_step w a = Ok w' → sinks_of w' s = sinks_of w s ++ attached s [a].
Proof.
  intros Hwf Hw. destruct (emission a) as [[j inst]|] eqn:He.
  { destruct (emission_inv _ _ _ _ _ He Hw) as (jb&st&Hj&Hs&->).
    unfold sinks_of. destruct (emission_quiet w a st jb) as [_ _ -> _ _ _].
    replace (attached s [a]) with (@nil nat) by (by destruct a). by rewrite app_nil_r. }
  assert (Hsame : attached s [a] = [] → sinks_of w' s = sinks_of w s → sinks_of w' s = sinks_of w s ++ attached s [a]).
  { intros -> ->. by rewrite app_nil_r. }
  destruct a; cbn in He; try done; cbn in Hw; unfold sinks_of in *.
  - injection Hw as <-. apply Hsame; [done|]. cbn. destruct (decide (w_next w = s)) as [<-|].
    + rewrite lookup_insert. cbn. destruct (w_streams w !! w_next w) eqn:E; [|done].
      apply (wf_streams _ Hwf) in E as [? _]. lia.
    + by rewrite lookup_insert_ne.
  - unfold add_sink in Hw. destruct (w_streams w !! s0) as [st|] eqn:Es; [|done]. injection Hw as <-.
    cbn. case_bool_decide as Hs; cbn.
    + subst s0. by rewrite lookup_insert, Es.
    + by rewrite lookup_insert_ne, app_nil_r by done.
  - apply Hsame; [done|]. unfold stream_key_value in Hw. destruct (w_streams w !! s0) as [st|] eqn:Es; [|done].
    destruct (st_kvs st); injection Hw as <-; cbn; [done|].
    destruct (decide (s0 = s)) as [->|]; [by rewrite lookup_insert, Es|by rewrite lookup_insert_ne].
  - apply Hsame; [done|]. by injection Hw as <-.
  - apply Hsame; [done|]. unfold job_key_value in Hw. destruct (w_jobs w !! j) as [st|] eqn:Es; [|done].
    by destruct (jb_kvs st); injection Hw as <-.
  - apply Hsame; [done|]. by injection Hw as <-.
  - apply Hsame; [done|]. by case_bool_decide; injection Hw as <-.
  - apply Hsame; [done|]. by injection Hw as <-.
Qed.

Lemma run_sinks w h w' s : wf w → api_run w h = Ok w' → sinks_of w' s = sinks_of w s ++ attached s h.
Proof.
  revert w. induction h as [|a h IH]; intros w Hwf; cbn [api_run]; intros H.
  - injection H as <-. by rewrite app_nil_r.
  - destruct (api_step w a) as [w1|] eqn:E; [|done]. cbn in H.
    destruct (step_wf _ _ _ Hwf E) as (H1&_&_).
    rewrite (IH _ H1 H), (step_sinks _ _ _ s Hwf E), <-app_assoc. f_equal.
    by rewrite <-attached_app.
Qed.

Lemma sinks_attached clock h w s st :
  api_run (world0 clock) h = Ok w → w_streams w !! s = Some st → st_sinks st = attached s h.
Proof.
  intros H Hs. pose proof (run_sinks _ _ _ s (wf_world0 clock) H) as E.
  unfold sinks_of in E. rewrite Hs in E. cbn in E. by rewrite lookup_empty in E.
Qed.

(** ** Only emissions call sinks *)
Lemma silent_log w a w' : emission a = None → api_step w a = Ok w' → w_log w' = w_log w.
Proof.
  intros He Hw. destruct a; cbn in He; try done; cbn in Hw.
  - by injection Hw as <-.
  - unfold add_sink in Hw. destruct (w_streams w !! s); [|done]. by injection Hw as <-.
  - unfold stream_key_value in Hw. destruct (w_streams w !! s) as [st|]; [|done].
    by destruct (st_kvs st); injection Hw as <-.
  - by injection Hw as <-.
  - unfold job_key_value in Hw. destruct (w_jobs w !! j) as [st|]; [|done].
    by destruct (jb_kvs st); injection Hw as <-.
  - by injection Hw as <-.
  - by case_bool_decide; injection Hw as <-.
  - by injection Hw as <-.
Qed.

(** ** C04: maps nobody else refers to *)
Record hidden (w : world) (l : nat) : Prop := {
  h_next : (l < w_next w)%nat;
  h_streams : ∀ s st, w_streams w !! s = Some st → st_kvs st ≠ Some l;
  h_jobs : ∀ j jb, w_jobs w !! j = Some jb → jb_kvs jb ≠ Some l;
  h_mine : l ∉ w_mine w }.

Ltac hidsolve Hh :=
  split; cbn; intros;
  repeat match goal with
  | H : context [_ !! _] |- _ => progress inslook
  end; cbn in *;
  repeat match goal with
  | H : w_streams _ !! _ = Some _ |- _ => apply (h_streams _ _ Hh) in H
  | H : w_jobs _ !! _ = Some _ |- _ => apply (h_jobs _ _ Hh) in H
  end;
  try done; try (by apply (h_mine _ _ Hh)); try (destruct Hh; lia);
  try (intros [= ?]; destruct Hh; lia).

Lemma hidden_step w a w' l : wf w → hidden w l → api_step w a = Ok w' → hidden w' l ∧ w_maps w' !! l = w_maps w !! l.
Proof.
  intros Hwf Hh Hw. pose proof (h_next _ _ Hh) as Hln. destruct (emission a) as [[j inst]|] eqn:He.
  { destruct (emission_inv _ _ _ _ _ He Hw) as (jb&st&Hj&Hs&->).
    destruct (emission_quiet w a st jb) as [H1 H2 H3 H4 H5 _]. split; [|auto].
    split; [lia|rewrite H3; apply Hh|rewrite H4; apply Hh|rewrite H5; apply Hh]. }
  destruct a; cbn in He; try done; cbn in Hw.
  - injection Hw as <-. split; [hidsolve Hh|done].
  - unfold add_sink in Hw. destruct (w_streams w !! s) as [st|] eqn:Es; [|done]. injection Hw as <-.
    split; [|done]. pose proof (h_streams _ _ Hh _ _ Es). hidsolve Hh.
  - unfold stream_key_value in Hw. destruct (w_streams w !! s) as [st|] eqn:Es; [|done].
    pose proof (h_streams _ _ Hh _ _ Es) as Hne.
    destruct (st_kvs st) as [l'|] eqn:El; injection Hw as <-; cbn.
    + split; [hidsolve Hh|]. rewrite lookup_insert_ne; [done|]. congruence.
    + split; [hidsolve Hh|]. rewrite !lookup_insert_ne by lia. done.
  - injection Hw as <-. split; [hidsolve Hh|done].
  - unfold job_key_value in Hw. destruct (w_jobs w !! j) as [st|] eqn:Es; [|done].
    pose proof (h_jobs _ _ Hh _ _ Es) as Hne.
    destruct (jb_kvs st) as [l'|] eqn:El; injection Hw as <-; cbn.
    + split; [hidsolve Hh|]. rewrite lookup_insert_ne; [done|]. congruence.
    + split; [hidsolve Hh|]. rewrite !lookup_insert_ne by lia. done.
  - injection Hw as <-. cbn. split; [|rewrite lookup_insert_ne by lia; done].
    hidsolve Hh. intros [->|Hx]%elem_of_cons; [lia|]. by apply (h_mine _ _ Hh).
  - case_bool_decide as Hin; injection Hw as <-; [|done]. cbn. split; [hidsolve Hh|].
    rewrite lookup_insert_ne; [done|]. intros ->. by apply (h_mine _ _ Hh).
  - injection Hw as <-. split; [hidsolve Hh|done].
Qed.

Lemma hidden_run w h w' l : wf w → hidden w l → api_run w h = Ok w' → w_maps w' !! l = w_maps w !! l.
Proof.
  revert w. induction h as [|a h IH]; intros w Hwf Hh; cbn [api_run]; intros H.
  - by injection H as <-.
  - destruct (api_step w a) as [w1|] eqn:E; [|done]. cbn in H.
    destruct (hidden_step _ _ _ _ Hwf Hh E) as [H1 H2]. rewrite <-H2.
    eapply IH; [by eapply step_wf|done|done].
Qed.
