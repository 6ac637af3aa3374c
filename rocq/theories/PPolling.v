(** * Proofs about the polling sink *)
From Verif Require Import SPolling PAgg2.

#[local] Arguments agg_step : simpl never.

Lemma psteps_app tr1 : ∀ s tr2 s', psteps s (tr1 ++ tr2) s' ↔ ∃ m, psteps s tr1 m ∧ psteps m tr2 s'.
Proof.
  induction tr1 as [|a tr1 IH]; intros s tr2 s'; cbn [app]; split.
  - intros H. exists s. split; [constructor|done].
  - intros (m & H1 & H2). inversion H1; subst. done.
  - intros H. inversion H; subst. apply IH in H5 as (m & ? & ?). exists m. split; [by econstructor|done].
  - intros (m & H1 & H2). inversion H1; subst. econstructor; [done|]. apply IH. eauto.
Qed.
Lemma psteps_one s a s' : psteps s [a] s' ↔ pstep s a s'.
Proof.
  split; [|by repeat econstructor]. intros H. inversion H; subst.
  match goal with H : psteps _ [] _ |- _ => inversion H; subst end. done.
Qed.

Lemma acc_app a b : poll_accepted (a ++ b) = poll_accepted a ++ poll_accepted b.
Proof. apply omap_app. Qed.
Lemma pro_app a b : poll_processed (a ++ b) = poll_processed a ++ poll_processed b.
Proof. apply omap_app. Qed.
Lemma his_app a b : poll_history (a ++ b) = poll_history a ++ poll_history b.
Proof. apply omap_app. Qed.
Lemma hc_app a b : hist_cmds (a ++ b) = hist_cmds a ++ hist_cmds b.
Proof. apply omap_app. Qed.
Lemma hist_processed tr : hist_cmds (poll_history tr) = poll_processed tr.
Proof.
  induction tr as [|a tr IH]; [done|]. unfold hist_cmds, poll_history, poll_processed in *.
  destruct a; cbn; try exact IH; f_equal; exact IH.
Qed.

Lemma agg_run_app h1 : ∀ a h2, agg_run a (h1 ++ h2) = (a' ←r agg_run a h1; agg_run a' h2).
Proof.
  induction h1 as [|[t o] h1 IH]; intros a h2; [done|]. cbn.
  destruct (agg_step a t o) as [[a' x]|w]; cbn; [apply IH|done].
Qed.

Record pinv (d r : Z) (tr : list pact) (s : pst) : Prop := {
  pi_q : poll_accepted tr = poll_processed tr ++ p_q s;
  pi_len : Z.of_nat (length (p_q s)) ≤ 4096;
  pi_agg : p_loop s ≠ PCrashed →
    ∃ a0, new_aggregator d r = Ok a0 ∧ agg_run a0 (poll_history tr) = Ok (p_agg s) }.

Lemma pinv_init d r : pinv d r [] (pst0 d r).
Proof.
  unfold pst0. destruct (new_aggregator d r) as [a|w] eqn:E; split; cbn; try done; try lia.
  intros _. exists a. done.
Qed.

Lemma pinv_step d r tr s a s' : pinv d r tr s → pstep s a s' → pinv d r (tr ++ [a]) s'.
Proof.
  intros [Hq Hl Ha] Hs.
  assert (poll_processed tr ++ p_q s = poll_accepted tr) as Hq' by done. clear Hq.
  inversion Hs; subst; cbn in *; split; cbn [p_q p_loop p_agg];
    rewrite ?acc_app, ?pro_app, ?his_app; cbn; rewrite ?app_nil_r; try done; try lia.
  all: try (rewrite <- Hq'; rewrite <- ?app_assoc; done).
  all: try (rewrite app_length; cbn; unfold p_room, poll_buff in *; lia).
  all: intros _; destruct Ha as (ag & Hn & Hr); [done|]; exists ag; (split; [exact Hn|]).
  all: first [exact Hr | rewrite agg_run_app, Hr; cbn;
      match goal with H : agg_step _ _ _ = _ |- _ => rewrite H end; done].
Qed.
Lemma pinv_steps d r tr' : ∀ tr s s', pinv d r tr s → psteps s tr' s' → pinv d r (tr ++ tr') s'.
Proof.
  induction tr' as [|a tr' IH]; intros tr s s' Hi Hs; inversion Hs; subst.
  - by rewrite app_nil_r.
  - rewrite cons_middle, app_assoc. eapply IH; [|done]. eapply pinv_step; done.
Qed.
Lemma pinv_reach d r tr s : psteps (pst0 d r) tr s → pinv d r tr s.
Proof. intros H. exact (pinv_steps d r tr [] _ _ (pinv_init d r) H). Qed.

(** ** Exactly once, in order *)
Lemma poll_fifo d r tr s : psteps (pst0 d r) tr s →
  poll_accepted tr = poll_processed tr ++ p_q s ∧ Z.of_nat (length (p_q s)) ≤ 4096 ∧
  (p_alive s → ∃ a0, new_aggregator d r = Ok a0 ∧ agg_run a0 (poll_history tr) = Ok (p_agg s)).
Proof. intros H. destruct (pinv_reach _ _ _ _ H) as [? ? ?]. done. Qed.

(** ** Reads *)
Lemma reply_take i out tr : ∀ s s', psteps s tr s' → p_loop s' = PReply i out →
  (∀ o, p_loop s ≠ PReply i o) →
  ∃ tr1 t tr2 m m', tr = tr1 ++ PReadTake i t :: tr2 ∧ psteps s tr1 m ∧ pstep m (PReadTake i t) m' ∧
    psteps m' tr2 s' ∧ p_loop m = PRun ∧
    agg_step (p_agg m) t OpRead = Ok (p_agg m', Some out) ∧ poll_history tr2 = [].
Proof.
  induction tr as [|a tr IH] using rev_ind; intros s s' Hs Hl Hn.
  - inversion Hs; subst. exfalso. by eapply Hn.
  - apply psteps_app in Hs as (m & H1 & H2). apply psteps_one in H2.
    assert (p_loop m = PReply i out ∧ poll_history [a] = [] ∨
            ∃ t, a = PReadTake i t ∧ p_loop m = PRun ∧ agg_step (p_agg m) t OpRead = Ok (p_agg s', Some out))
      as [[Hm Ha]|(t & -> & Hm & Ha)].
    { inversion H2; subst; cbn in *; try discriminate; try (left; done).
      right. injection Hl as -> ->. eauto. }
    + destruct (IH _ _ H1 Hm Hn) as (tr1 & t & tr2 & m1 & m2 & -> & Q1 & Q2 & Q3 & Q4 & Q5 & Q6).
      exists tr1, t, (tr2 ++ [a]), m1, m2. rewrite <- app_assoc. repeat (split; [done|]).
      split. { apply psteps_app. exists m. split; [done|]. by apply psteps_one. }
      split; [done|]. split; [done|]. rewrite his_app, Q6. done.
    + exists tr, t, [], m, s'. repeat (split; [done|]). split; [constructor|]. done.
Qed.

Lemma pst0_loop d r : p_loop (pst0 d r) = PRun ∨ p_loop (pst0 d r) = PCrashed.
Proof. unfold pst0. destruct new_aggregator; auto. Qed.

Lemma metrics_of_run d r a0 h a t a' out : new_aggregator d r = Ok a0 → agg_run a0 h = Ok a →
  agg_step a t OpRead = Ok (a', Some out) → get_metrics d r h t = Ok out.
Proof. intros H1 H2 H3. unfold get_metrics. rewrite H1. cbn [rbind]. rewrite H2. cbn [rbind]. rewrite H3. done. Qed.

Lemma ret_reply s i out s' : pstep s (PReadRet i out) s' →
  p_loop s = PReply i out ∧ p_loop s' = PRun ∧ p_q s' = p_q s ∧ p_agg s' = p_agg s.
Proof. intros H. inversion H; subst. done. Qed.

Lemma hist_snoc_read tr1 i t : poll_history (tr1 ++ [PReadTake i t]) = poll_history tr1 ++ [(t, OpRead)].
Proof. rewrite his_app. done. Qed.

Lemma proc_prefix d r tr s : psteps (pst0 d r) tr s → poll_processed tr `prefix_of` poll_accepted tr.
Proof. intros H. destruct (pinv_reach _ _ _ _ H) as [-> ? ?]. by eexists. Qed.

Lemma prefix_app_mono {A} (l1 l2 l3 : list A) : l1 `prefix_of` l2 → l1 `prefix_of` l2 ++ l3.
Proof. intros H. etrans; [exact H|]. by apply prefix_app_r. Qed.

(** what a read that returned saw *)
Lemma read_sees d r tr i out s : psteps (pst0 d r) (tr ++ [PReadRet i out]) s →
  ∃ tr1 t tr2, tr = tr1 ++ PReadTake i t :: tr2 ∧ poll_history tr2 = [] ∧
    get_metrics d r (poll_history tr1) t = Ok out ∧
    poll_processed tr1 `prefix_of` poll_accepted tr1.
Proof.
  intros H. apply psteps_app in H as (m & H1 & H2). apply psteps_one in H2.
  apply ret_reply in H2 as (Hl & _).
  destruct (reply_take i out tr _ _ H1 Hl) as (tr1 & t & tr2 & m1 & m2 & -> & Q1 & Q2 & Q3 & Q4 & Q5 & Q6).
  { intros o. destruct (pst0_loop d r) as [-> | ->]; done. }
  exists tr1, t, tr2. split; [done|]. split; [done|].
  destruct (pinv_reach _ _ _ _ Q1) as [P1 P2 P3].
  destruct P3 as (a0 & E1 & E2). { rewrite Q4. done. }
  split; [by eapply metrics_of_run|]. rewrite P1. by eexists.
Qed.

(** two reads, one returning after the other *)
Lemma reads_grow d r tr1 i out1 tr2 j out2 s :
  psteps (pst0 d r) (tr1 ++ PReadRet i out1 :: tr2 ++ [PReadRet j out2]) s →
  ∃ h1 t1 h2 t2, get_metrics d r h1 t1 = Ok out1 ∧ get_metrics d r h2 t2 = Ok out2 ∧
    (h1 ++ [(t1, OpRead)]) `prefix_of` h2 ∧
    hist_cmds h1 `prefix_of` hist_cmds h2 ∧
    hist_cmds h1 `prefix_of` poll_accepted tr1 ∧
    hist_cmds h2 `prefix_of` poll_accepted (tr1 ++ tr2).
Proof.
  intros H.
  assert (H' := H). rewrite cons_middle, app_assoc in H'.
  apply psteps_app in H' as (m & H1 & H2).
  destruct (read_sees _ _ _ _ _ _ H1) as (ta & t1 & tb & -> & Hb & G1 & P1).
  apply psteps_app in H2 as (m2 & H2 & H3). apply psteps_one in H3.
  apply ret_reply in H3 as (Hl & _).
  assert (p_loop m = PRun) as Hm.
  { apply psteps_app in H1 as (m0 & _ & H0). apply psteps_one in H0. by apply ret_reply in H0 as (_ & ? & _). }
  destruct (reply_take j out2 tr2 _ _ H2 Hl) as (tc & t2 & td & m3 & m4 & -> & Q1 & Q2 & Q3 & Q4 & Q5 & Q6).
  { intros o. rewrite Hm. done. }
  assert (psteps (pst0 d r) (((ta ++ PReadTake i t1 :: tb) ++ [PReadRet i out1]) ++ tc) m3) as Hall.
  { apply psteps_app. eauto. }
  destruct (pinv_reach _ _ _ _ Hall) as [I1 I2 I3].
  destruct I3 as (a0 & E1 & E2). { rewrite Q4. done. }
  exists (poll_history ta), t1, (poll_history (((ta ++ PReadTake i t1 :: tb) ++ [PReadRet i out1]) ++ tc)), t2.
  split; [done|]. split; [by eapply metrics_of_run|].
  assert (poll_history (((ta ++ PReadTake i t1 :: tb) ++ [PReadRet i out1]) ++ tc)
          = poll_history ta ++ [(t1, OpRead)] ++ poll_history tc) as Eh.
  { rewrite !his_app. change (PReadTake i t1 :: tb) with ([PReadTake i t1] ++ tb).
    rewrite his_app, Hb. cbn. rewrite app_nil_r, <- app_assoc. done. }
  split. { rewrite Eh. exists (poll_history tc). by rewrite app_assoc. }
  split. { rewrite Eh, hc_app. by eexists. }
  split. { rewrite hist_processed, acc_app. by apply prefix_app_mono. }
  rewrite hist_processed. destruct (pinv_reach _ _ _ _ Hall) as [J1 _ _].
  assert (poll_processed (((ta ++ PReadTake i t1 :: tb) ++ [PReadRet i out1]) ++ tc)
    `prefix_of` poll_accepted (((ta ++ PReadTake i t1 :: tb) ++ [PReadRet i out1]) ++ tc)) as HP
    by (rewrite J1; by eexists).
  etrans; [exact HP|]. rewrite !acc_app. cbn. rewrite app_nil_r, !app_assoc. by apply prefix_app_r.
Qed.

(** ** Staleness: at most the queue's worth of commands is missing *)
Lemma read_staleness d r tr1 i tr2 out s :
  psteps (pst0 d r) (tr1 ++ PReadCall i :: tr2 ++ [PReadRet i out]) s →
  ∃ h t, get_metrics d r h t = Ok out ∧
    hist_cmds h `prefix_of` poll_accepted (tr1 ++ tr2) ∧
    poll_processed tr1 `prefix_of` hist_cmds h ∧
    Z.of_nat (length (poll_accepted tr1)) - 4096 ≤ Z.of_nat (length (hist_cmds h)).
Proof.
  intros H. rewrite cons_middle, app_assoc in H.
  apply psteps_app in H as (m & H1 & H2).
  assert (H1' := H1). apply psteps_app in H1' as (m0 & H0 & Hc). apply psteps_one in Hc.
  assert (∀ o, p_loop m ≠ PReply i o) as Hid.
  { inversion Hc; subst. cbn. match goal with H : p_idle _ _ |- _ => destruct H as (_ & _ & _ & ?) end. done. }
  apply psteps_app in H2 as (m2 & H2 & H3). apply psteps_one in H3. apply ret_reply in H3 as (Hl & _).
  destruct (reply_take i out tr2 _ _ H2 Hl Hid) as (tc & t & td & m3 & m4 & -> & Q1 & Q2 & Q3 & Q4 & Q5 & Q6).
  assert (psteps (pst0 d r) ((tr1 ++ [PReadCall i]) ++ tc) m3) as Hall. { apply psteps_app. eauto. }
  destruct (pinv_reach _ _ _ _ Hall) as [I1 I2 I3].
  destruct I3 as (a0 & E1 & E2). { rewrite Q4. done. }
  destruct (pinv_reach _ _ _ _ H0) as [J1 J2 J3].
  exists (poll_history ((tr1 ++ [PReadCall i]) ++ tc)), t.
  split; [by eapply metrics_of_run|]. rewrite hist_processed.
  split.
  { etrans; [exists (p_q m3); exact I1|]. rewrite !acc_app. cbn. rewrite app_nil_r, app_assoc. by apply prefix_app_r. }
  rewrite !pro_app. cbn. rewrite app_nil_r. split; [by eexists|].
  rewrite J1, !app_length. lia.
Qed.

(** with nothing waiting when GetMetrics is called, everything emitted before is seen *)
Lemma read_quiet d r tr1 i tr2 out s m :
  psteps (pst0 d r) tr1 m → p_q m = [] → psteps m (PReadCall i :: tr2 ++ [PReadRet i out]) s →
  ∃ h t, get_metrics d r h t = Ok out ∧
    poll_accepted tr1 `prefix_of` hist_cmds h ∧ hist_cmds h `prefix_of` poll_accepted (tr1 ++ tr2).
Proof.
  intros H1 Hq H2.
  destruct (read_staleness d r tr1 i tr2 out s) as (h & t & G & P1 & P2 & _).
  { apply psteps_app. eauto. }
  exists h, t. split; [done|]. split; [|done].
  destruct (pinv_reach _ _ _ _ H1) as [J1 _ _]. rewrite J1, Hq, app_nil_r. done.
Qed.

(** ** Shutdown *)
Lemma stopped_step s a s' : p_loop s = PStopped → pstep s a s' →
  p_loop s' = PStopped ∧ p_agg s' = p_agg s ∧ ¬ loop_step a ∧ p_q s' = p_q s ++ poll_accepted [a] ∧
  Z.of_nat (length (p_q s')) ≤ Z.max (Z.of_nat (length (p_q s))) 4096.
Proof.
  intros Hl Hs. inversion Hs; subst; cbn in *; try discriminate; rewrite ?app_nil_r, ?app_length; cbn;
    unfold p_room, poll_buff in *; repeat split; auto; lia.
Qed.
Lemma stopped_steps tr : ∀ s s', p_loop s = PStopped → Z.of_nat (length (p_q s)) ≤ 4096 → psteps s tr s' →
  p_loop s' = PStopped ∧ p_agg s' = p_agg s ∧ Forall (λ a, ¬ loop_step a) tr ∧
  p_q s' = p_q s ++ poll_accepted tr ∧ Z.of_nat (length (p_q s')) ≤ 4096.
Proof.
  induction tr as [|a tr IH]; intros s s' Hl Hq Hs; inversion Hs; subst.
  - rewrite app_nil_r. done.
  - match goal with H : pstep _ _ _ |- _ => destruct (stopped_step _ _ _ Hl H) as (A1 & A2 & A3 & A4 & A5) end.
    match goal with H : psteps _ tr _ |- _ => destruct (IH _ _ A1 ltac:(lia) H) as (B1 & B2 & B3 & B4 & B5) end.
    split; [done|]. split; [congruence|]. split; [by constructor|]. split; [|lia].
    rewrite B4, A4, <- app_assoc. rewrite (acc_app [a] tr : poll_accepted (a :: tr) = _). done.
Qed.

Lemma shut_final d r tr1 i tr2 s :
  psteps (pst0 d r) (tr1 ++ PShutRet i :: tr2) s →
  ∃ m, psteps (pst0 d r) (tr1 ++ [PShutRet i]) m ∧ p_loop s = PStopped ∧ p_agg s = p_agg m ∧
    Forall (λ a, ¬ loop_step a) tr2 ∧
    p_q s = p_q m ++ poll_accepted tr2 ∧
    Z.of_nat (length (p_q m)) + Z.of_nat (length (poll_accepted tr2)) ≤ 4096.
Proof.
  intros H. rewrite cons_middle, app_assoc in H. apply psteps_app in H as (m & H1 & H2).
  exists m. split; [done|].
  assert (p_loop m = PStopped) as Hm.
  { apply psteps_app in H1 as (m0 & _ & H0). apply psteps_one in H0. inversion H0; subst; done. }
  destruct (pinv_reach _ _ _ _ H1) as [_ J2 _].
  destruct (stopped_steps _ _ _ Hm J2 H2) as (B1 & B2 & B3 & B4 & B5).
  rewrite B4, app_length in B5. repeat (split; [done|]). lia.
Qed.

(** ** Nobody is stuck before the shutdown *)
Record pwf (s : pst) : Prop := {
  pw_bye : p_loop s = PByeSend → p_wb s ≠ [];
  pw_wb : p_loop s ≠ PByeSend → p_wb s = [];
  pw_one : (length (p_wb s) ≤ 1)%nat }.

Lemma p_out_in i j l : j ∈ p_out i l ↔ j ∈ l ∧ j ≠ i.
Proof.
  unfold p_out. rewrite !elem_of_list_In. split.
  - intros H. apply in_remove in H. done.
  - intros [? ?]. by apply in_in_remove.
Qed.

Lemma pwf_step s a s' : pwf s → pstep s a s' → pwf s'.
Proof.
  intros [H1 H2 H3] Hs. inversion Hs; subst; cbn in *; split; cbn; try done; try (intros; apply H2; congruence).
  all: try (rewrite H2 by done; cbn; done).
  all: destruct wb as [|k [|]]; cbn in H3; [by destruct (H1 eq_refl)| |lia];
    match goal with H : _ ∈ [k] |- _ => apply elem_of_list_singleton in H; subst end;
    unfold p_out; cbn; destruct (Nat.eq_dec k k); try done; cbn; lia.
Qed.
Lemma pwf_steps tr : ∀ s s', pwf s → psteps s tr s' → pwf s'.
Proof.
  induction tr as [|a tr IH]; intros s s' Hw Hs; inversion Hs; subst; [done|].
  eapply IH; [|done]. by eapply pwf_step.
Qed.
Lemma pwf_init d r : pwf (pst0 d r).
Proof. unfold pst0. destruct new_aggregator; split; cbn; auto; done. Qed.

Lemma step_ok d r a0 h a t o : 0 < d → d ≤ r → new_aggregator d r = Ok a0 → agg_run a0 h = Ok a →
  ∃ a' x, agg_step a t o = Ok (a', x).
Proof.
  intros Hd Hr Hn Hh. destruct (thm_retention_safe d r (h ++ [(t, o)]) Hd Hr) as (b0 & b & B1 & B2 & _).
  rewrite Hn in B1. injection B1 as <-. rewrite agg_run_app, Hh in B2. cbn in B2.
  destruct (agg_step a t o) as [[a' x]|w]; [eauto|done].
Qed.
Lemma read_out a t a' x : agg_step a t OpRead = Ok (a', x) → ∃ out, x = Some out.
Proof.
  unfold agg_step. destruct (memory_safe_intervals a t) as [[b o]|w]; cbn; [|done].
  intros [= <- <-]. eauto.
Qed.

Lemma poll_alive d r tr s : 0 < d → d ≤ r → psteps (pst0 d r) tr s → p_alive s.
Proof.
  intros Hd Hr. revert s. induction tr as [|a tr IH] using rev_ind; intros s H.
  - inversion H; subst. unfold p_alive, pst0.
    destruct (thm_retention_safe d r [] Hd Hr) as (b0 & b & -> & _). done.
  - apply psteps_app in H as (m & H1 & H2). apply psteps_one in H2.
    assert (Hm := IH _ H1). destruct (pinv_reach _ _ _ _ H1) as [_ _ Ha]. destruct (Ha Hm) as (a0 & A1 & A2).
    inversion H2; subst; try done; cbn in *.
    all: match goal with H : agg_step ?a ?t ?o = Crash _ |- _ =>
      destruct (step_ok d r _ _ _ t o Hd Hr A1 A2) as (a' & x & E); rewrite E in H; done end.
Qed.

(** the goroutine can always serve a reader, unless it was told to stop *)
Lemma read_can_return d r tr s i t : 0 < d → d ≤ r → psteps (pst0 d r) tr s → i ∈ p_wr s →
  p_loop s ≠ PByeSend → p_loop s ≠ PStopped →
  ∃ tr' out s', Forall loop_step tr' ∧ (length tr' ≤ 3)%nat ∧ psteps s (tr' ++ [PReadRet i out]) s' ∧
    ∀ t', (∃ j, PReadTake j t' ∈ tr') → t' = t.
Proof.
  intros Hd Hr H Hi Hb Hs.
  assert (Halive := poll_alive _ _ _ _ Hd Hr H).
  assert (∀ q a wr wd wb, i ∈ wr → ∀ tr0, psteps (pst0 d r) tr0 (PSt q PRun a wr wd wb) →
    ∃ out s', psteps (PSt q PRun a wr wd wb) [PReadTake i t; PReadRet i out] s') as Hrun.
  { intros q a wr wd wb Hw tr0 H0. destruct (pinv_reach _ _ _ _ H0) as [_ _ Ha].
    destruct Ha as (a0 & A1 & A2); [done|]. cbn in A2.
    destruct (step_ok d r _ _ _ t OpRead Hd Hr A1 A2) as (a' & x & E).
    destruct (read_out _ _ _ _ E) as [out ->].
    exists out. eexists. econstructor; [by apply Ps_read_take|]. econstructor; [apply Ps_read_ret|]. constructor. }
  destruct s as [q l a wr wd wb]; cbn in *. destruct l as [|j o| | |]; try done.
  - destruct (Hrun q a wr wd wb Hi _ H) as (out & s' & Hx).
    exists [PReadTake i t], out, s'. split; [repeat constructor|]. split; [cbn; lia|]. split; [done|].
    intros t' [j Hj]. set_solver.
  - assert (pstep (PSt q (PReply j o) a wr wd wb) (PReadRet j o) (PSt q PRun a wr wd wb)) as Hst by constructor.
    destruct (Hrun q a wr wd wb Hi (tr ++ [PReadRet j o])) as (out & s' & Hx).
    { apply psteps_app. eexists. split; [done|]. by apply psteps_one. }
    exists [PReadRet j o; PReadTake i t], out, s'. split; [repeat constructor|]. split; [cbn; lia|].
    split. { cbn. econstructor; [done|]. done. }
    intros t' [k Hk]. set_solver.
Qed.

(** and it can always be stopped *)
Lemma shut_can_return d r tr s i : 0 < d → d ≤ r → psteps (pst0 d r) tr s → i ∈ p_wd s →
  p_loop s ≠ PByeSend → p_loop s ≠ PStopped →
  ∃ tr' s', Forall loop_step tr' ∧ (length tr' ≤ 3)%nat ∧ psteps s (tr' ++ [PShutRet i]) s'.
Proof.
  intros Hd Hr H Hi Hb Hs. assert (Halive := poll_alive _ _ _ _ Hd Hr H).
  destruct s as [q l a wr wd wb]; cbn in *.
  assert (∃ s', psteps (PSt q PRun a wr wd wb) [PShutTake i; PShutRet i] s') as [s' Hx].
  { eexists. econstructor; [by apply Ps_shut_take|]. econstructor; [apply Ps_shut_ret; left|]. constructor. }
  destruct l as [|j o| | |]; try done.
  - exists [PShutTake i], s'. split; [repeat constructor|]. split; [cbn; lia|]. done.
  - exists [PReadRet j o; PShutTake i], s'. split; [repeat constructor|]. split; [cbn; lia|].
    cbn. econstructor; [constructor|done].
Qed.

(** ** Read your writes fails *)
Lemma read_your_writes_fails : ∃ tr1 i tr2 out s,
  psteps (pst0 60 300) (tr1 ++ PReadCall i :: tr2 ++ [PReadRet i out]) s ∧
  PEmit (CEvent "job" "boom") ∈ tr1 ∧
  (∀ ag, ag ∈ out → am_events (ia_maps ag) !! "boom" = None).
Proof.
  exists [PEmit (CEvent "job" "boom")], 0%nat, [PReadTake 0 65], [new_ia 60].
  eexists. split; [|split].
  - cbn. econstructor; [apply Ps_emit; [done|vm_compute; done]|].
    econstructor; [apply Ps_read_call; [done|]|].
    { repeat split; try set_solver; done. }
    cbn. econstructor. { apply Ps_read_take; [set_solver|]. vm_compute. reflexivity. }
    econstructor; [apply Ps_read_ret|]. constructor.
  - set_solver.
  - intros ag Hag. apply elem_of_list_singleton in Hag as ->. done.
Qed.
