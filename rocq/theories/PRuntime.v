(** * Proofs about RuntimeMetrics *)
From Verif Require Import SRuntime.

Lemma thm_report o r : report o r = wanted o r ∧ NoDup (map fst (report o r)).
Proof.
  destruct o as [i [] [] [] [] [] []], r as [? ? ? ? ? ? ? ? ? ? [n|]]; (split; [reflexivity|]); cbn; apply (bool_decide_unpack _); vm_compute; done.
Qed.

Lemma rsteps_app o tr1 : ∀ s tr2 r, rsteps o s (tr1 ++ tr2) r → tr2 ≠ [] → ∃ s', rsteps o s tr1 (Ok s') ∧ rsteps o s' tr2 r.
Proof.
  induction tr1 as [|a tr1 IH]; intros s tr2 r H Hn; [exists s; split; [constructor|done]|].
  cbn in H. inversion H as [|? ? s' ? ? Hs Hss|? ? w Hs]; subst.
  - apply IH in Hss as (s2&H1&H2); [|done]. exists s2. split; [by econstructor|done].
  - by destruct tr1, tr2.
Qed.
Lemma rsteps_snoc o s tr a r : rsteps o s (tr ++ [a]) r → ∃ s', rsteps o s tr (Ok s') ∧ rstep o s' a r.
Proof.
  intros H. apply rsteps_app in H as (s'&H1&H2); [|done]. exists s'. split; [done|].
  inversion H2 as [|? ? s2 ? ? Hs Hss|]; subst; [|done]. by inversion Hss; subst.
Qed.
Lemma rsteps_trans o s1 tr1 s2 tr2 r : rsteps o s1 tr1 (Ok s2) → rsteps o s2 tr2 r → rsteps o s1 (tr1 ++ tr2) r.
Proof.
  intros H. remember (Ok s2) as r2 eqn:E. induction H; cbn; [by injection E as ->| |done]. intros. econstructor; eauto.
Qed.

Definition todo_of (ph : option pphase) : list (string * f64) := match ph with Some (PReport l) => l | _ => [] end.
Lemma gauges_app p t1 : ∀ t2, gauges_of p (t1 ++ t2) = gauges_of p t1 ++ gauges_of p t2.
Proof. induction t1 as [|a t1 IH]; intros t2; [done|]. destruct a; cbn; rewrite ?IH; try done. by case_decide. Qed.
Lemma reports_app o p t1 : ∀ t2, reports_of o p (t1 ++ t2) = reports_of o p t1 ++ reports_of o p t2.
Proof. induction t1 as [|a t1 IH]; intros t2; [done|]. destruct a; cbn; rewrite ?IH; try done. by case_decide. Qed.
Lemma starts_app t1 : ∀ t2, starts (t1 ++ t2) = starts t1 + starts t2.
Proof. induction t1 as [|a t1 IH]; intros t2; [done|]. destruct a; cbn; rewrite ?IH; lia. Qed.
Lemma stops_app t1 : ∀ t2, stops (t1 ++ t2) = stops t1 + stops t2.
Proof. induction t1 as [|a t1 IH]; intros t2; [done|]. destruct a; cbn; rewrite ?IH; lia. Qed.

Lemma phase_upd (l : list pphase) q ph p : todo_of (<[q := ph]> l !! p) = if decide (q = p ∧ (q < length l)%nat) then todo_of (Some ph) else todo_of (l !! p).
Proof.
  case_decide as H.
  - destruct H as [-> H]. by rewrite list_lookup_insert.
  - destruct (decide (q = p)) as [->|Hn]; [|by rewrite list_lookup_insert_ne].
    rewrite list_insert_ge; [done|]. destruct (decide (p < length l)%nat); [tauto|lia].
Qed.
Lemma thm_emitted o tr s : rsteps o rst0 tr (Ok s) →
  ∀ p, concat (reports_of o p tr) = gauges_of p tr ++ todo_of (rs_pollers s !! p).
Proof.
  revert s. induction tr as [|a tr IH] using rev_ind; intros s H p.
  { inversion H; subst. cbn. by destruct p. }
  apply rsteps_snoc in H as (s1&H1&H2). specialize (IH s1 H1 p). rewrite reports_app, gauges_app, concat_app, IH.
  inversion H2 as [s' E1 E2 E3|s' q Hq Hi E1 E2 E3| |s' q r Hq E1 E2 E3|s' q k v l Hq E1 E2 E3|s' q Hq E1 E2 E3|s' i q Hq Hi E1 E2 E3|s' i q Hq Hi E1 E2 E3]; subst; cbn.
  - rewrite !app_nil_r. f_equal. destruct (decide (p < length (rs_pollers s1))%nat).
    + by rewrite lookup_app_l.
    + rewrite (lookup_ge_None_2 (rs_pollers s1)) by lia. rewrite lookup_app_r by lia. by destruct (p - length (rs_pollers s1))%nat as [|[]].
  - rewrite !app_nil_r, phase_upd. case_decide as Hd; [|done]. destruct Hd as [-> _]. by rewrite Hq.
  - rewrite phase_upd. apply lookup_lt_Some in Hq as Hl. destruct (decide (q = p)) as [->|Hn].
    + rewrite decide_True by done. rewrite Hq. cbn. rewrite !app_nil_r. f_equal. symmetry. apply thm_report.
    + rewrite decide_False by tauto. cbn. by rewrite !app_nil_r.
  - rewrite phase_upd. apply lookup_lt_Some in Hq as Hl. destruct (decide (q = p)) as [->|Hn].
    + rewrite decide_True by done. rewrite Hq. cbn. by rewrite app_nil_r, <-app_assoc.
    + rewrite decide_False by tauto. cbn. by rewrite !app_nil_r.
  - rewrite !app_nil_r, phase_upd. case_decide as Hd; [|done]. destruct Hd as [-> _]. by rewrite Hq.
  - rewrite !app_nil_r, phase_upd. case_decide as Hd; [|done]. destruct Hd as [-> _]. by rewrite Hq.
  - rewrite !app_nil_r, phase_upd. case_decide as Hd; [|done]. destruct Hd as [-> _]. by rewrite Hq.
Qed.
(** when a poller takes the stop, all its reports are complete *)
Lemma thm_complete o tr i p s : rsteps o rst0 (tr ++ [RStop i p]) (Ok s) →
  gauges_of p tr = concat (reports_of o p tr).
Proof.
  intros H. apply rsteps_snoc in H as (s1&H1&H2). rewrite (thm_emitted o tr s1 H1 p). inversion H2; subst.
  match goal with H : rs_pollers _ !! p = _ |- _ => rewrite H end. cbn. by rewrite app_nil_r.
Qed.
(** a poller that has taken the stop stays silent *)
Definition silent (s : rst) (p : nat) : Prop := rs_pollers s !! p = Some PAck ∨ rs_pollers s !! p = Some PGone.
Lemma silent_step o s a s' p : rstep o s a (Ok s') → silent s p → silent s' p ∧ (∀ k v, a ≠ RGauge p k v).
Proof.
  unfold silent. intros H Hs. inversion H; subst; cbn.
  - split; [|done]. assert (p < length (rs_pollers s))%nat by (destruct Hs as [Hs|Hs]; by apply lookup_lt_Some in Hs). by rewrite lookup_app_l.
  - split; [|done]. destruct (decide (p0 = p)) as [->|Hn]; [naive_solver|by rewrite list_lookup_insert_ne].
  - split; [|done]. destruct (decide (p0 = p)) as [->|Hn]; [naive_solver|by rewrite list_lookup_insert_ne].
  - split; [|intros k' v' [= -> -> ->]; naive_solver]. destruct (decide (p0 = p)) as [->|Hn]; [naive_solver|by rewrite list_lookup_insert_ne].
  - split; [|done]. destruct (decide (p0 = p)) as [->|Hn]; [naive_solver|by rewrite list_lookup_insert_ne].
  - split; [|done]. destruct (decide (p0 = p)) as [->|Hn]; [naive_solver|by rewrite list_lookup_insert_ne].
  - split; [|done]. destruct (decide (p0 = p)) as [->|Hn]; [|by rewrite list_lookup_insert_ne]. right. apply list_lookup_insert. by eapply lookup_lt_Some.
Qed.
Lemma silent_steps o s tr r p : rsteps o s tr r → silent s p → gauges_of p tr = [].
Proof.
  induction 1 as [|s a s' tr r Hs Hss IH|s a w Hs]; intros Hp; [done| |].
  - destruct (silent_step _ _ _ _ _ Hs Hp) as [Hp' Hg]. specialize (IH Hp'). destruct a; cbn; try done. case_decide; [|done]. subst. by destruct (Hg k v).
  - inversion Hs; subst; done.
Qed.
Lemma thm_silent o tr1 i p tr2 r : rsteps o rst0 (tr1 ++ RStop i p :: tr2) r → gauges_of p (RStop i p :: tr2) = [].
Proof.
  intros H. apply rsteps_app in H as (s1&H1&H2); [|done]. inversion H2 as [|? ? s2 ? ? Hs Hss|? ? w Hs]; subst; [|inversion Hs].
  cbn. eapply silent_steps; [exact Hss|]. inversion Hs; subst. left. cbn. apply list_lookup_insert. by eapply lookup_lt_Some.
Qed.

(** live pollers *)
Lemma live_in_app l1 l2 : live_in (l1 ++ l2) = live_in l1 + live_in l2.
Proof. induction l1 as [|x l1 IH]; cbn; lia. Qed.
Lemma live_in_insert l : ∀ p ph ph', l !! p = Some ph → live_in (<[p := ph']> l) = live_in l + (if gone ph then 1 else 0) - (if gone ph' then 1 else 0).
Proof.
  induction l as [|x l IH]; intros p ph ph' H; [done|]. destruct p as [|p]; cbn in *.
  - injection H as ->. destruct (gone ph), (gone ph'); lia.
  - rewrite (IH _ _ _ H). destruct (gone x); lia.
Qed.
Lemma live_step o s a s' : rstep o s a (Ok s') → live s' = live s + starts [a] - stops [a].
Proof.
  unfold live. intros H. inversion H; subst; cbn; rewrite ?live_in_app; cbn; try lia;
    match goal with H : rs_pollers _ !! _ = Some ?ph |- _ => rewrite (live_in_insert _ _ _ _ H); cbn; lia end.
Qed.
Lemma live_steps o s tr s' : rsteps o s tr (Ok s') → live s' = live s + starts tr - stops tr.
Proof.
  intros H. remember (Ok s') as r eqn:E. induction H as [|s a s1 tr r Hs Hss IH|]; [injection E as ->; cbn; lia| |done].
  specialize (IH E). apply live_step in Hs. change (a :: tr) with ([a] ++ tr). rewrite starts_app, stops_app. lia.
Qed.
Lemma thm_live o tr s : rsteps o rst0 tr (Ok s) → live s = starts tr - stops tr.
Proof. intros H. apply live_steps in H. cbn in H. unfold live in *. cbn in H. lia. Qed.
Lemma live_nonneg l : 0 ≤ live_in l.
Proof. induction l as [|x l IH]; cbn; [lia|]. destruct (gone x); lia. Qed.
Lemma live_pos l : ∀ p ph, l !! p = Some ph → gone ph = false → 0 < live_in l.
Proof.
  induction l as [|x l IH]; intros p ph H Hg; [done|]. destruct p as [|p]; cbn in *.
  - injection H as ->. rewrite Hg. pose proof (live_nonneg l). lia.
  - specialize (IH _ _ H Hg). destruct (gone x); lia.
Qed.
Lemma starts_nonneg tr : 0 ≤ starts tr.
Proof. induction tr as [|[]]; cbn; lia. Qed.
(** as many stops as starts: silence, until the next Start *)
Lemma dead_steps o s tr r : rsteps o s tr r → live s = 0 → starts tr = 0 → ∀ a, a ∈ tr → ¬ is_gauge a.
Proof.
  induction 1 as [|s a s' tr r Hs Hss IH|s a w Hs]; intros Hl Hst b Hb; [inversion Hb| |].
  - pose proof (starts_nonneg tr). pose proof (starts_nonneg [a]). change (a :: tr) with ([a] ++ tr) in Hst. rewrite starts_app in Hst.
    assert (stops [a] = 0 ∧ ¬ is_gauge a) as [Hsp Hg].
    { inversion Hs; subst; cbn; try (split; [done|tauto]).
      all: exfalso; match goal with H : rs_pollers _ !! _ = Some ?ph |- _ => pose proof (live_pos _ _ _ H eq_refl); unfold live in Hl; lia end. }
    apply live_step in Hs. apply elem_of_cons in Hb as [->|Hb]; [done|]. apply IH; [lia|lia|done].
  - apply elem_of_list_singleton in Hb as ->. inversion Hs; subst. by intros [].
Qed.
Lemma thm_no_more o tr1 s tr2 r : rsteps o rst0 tr1 (Ok s) → starts tr1 = stops tr1 → rsteps o s tr2 r → starts tr2 = 0 →
  ∀ a, a ∈ tr2 → ¬ is_gauge a.
Proof. intros H1 E H2 H3. eapply dead_steps; [exact H2| |done]. apply thm_live in H1. lia. Qed.
(** a Stop can only be taken by a poller *)
Lemma thm_stop_hangs o tr1 s tr2 r : rsteps o rst0 tr1 (Ok s) → starts tr1 = stops tr1 → rsteps o s tr2 r → starts tr2 = 0 → stops tr2 = 0.
Proof.
  intros H1 E H2 H3. apply thm_live in H1. assert (Hl : live s = 0) by lia. clear H1 E.
  induction H2 as [|s a s' tr r Hs Hss IH|s a w Hs]; [done| |by inversion Hs; subst].
  pose proof (starts_nonneg tr). pose proof (starts_nonneg [a]). change (a :: tr) with ([a] ++ tr) in *. rewrite starts_app in H3. rewrite stops_app.
  assert (stops [a] = 0) as Hsp.
  { inversion Hs; subst; cbn; try done.
    exfalso; match goal with H : rs_pollers _ !! _ = Some ?ph |- _ => pose proof (live_pos _ _ _ H eq_refl); unfold live in Hl; lia end. }
  apply live_step in Hs. rewrite Hsp, IH; lia.
Qed.
Lemma thm_no_crash o s tr w : 0 < ro_interval o → ¬ rsteps o s tr (Crash w).
Proof.
  intros Hi H. remember (Crash w) as r eqn:E. induction H as [|s a s1 tr r Hs Hss IH|s a w' Hs]; [done|by apply IH|]. inversion Hs; subst. lia.
Qed.

Lemma thm_default r : ro_interval (new_opts None) = 5 * 1000000000 ∧
  report (new_opts None) r = omap (λ x : bool * string * option f64, (λ v, (x.1.2, v)) <$> x.2) (gauge_table (new_opts None) r).
Proof. split; [done|]. by destruct r as [? ? ? ? ? ? ? ? ? ? []]. Qed.
