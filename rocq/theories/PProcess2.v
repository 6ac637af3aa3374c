(** * Calls return while no sink is stopped; a stopped sink holds up the others *)
From Verif Require Export PProcess.
From Verif Require Import PLibrato2 PPolling PStatsdLoop PStatsdEx.

(** ** The polling sink empties its queue *)
Definition no_shut (tr : list pact) : Prop := Forall (λ a, match a with PShutCall _ => False | _ => True end) tr.
Lemma no_shut_inv d r tr s : psteps (pst0 d r) tr s → no_shut tr → p_wd s = [] ∧ p_wb s = [] ∧ p_loop s ≠ PByeSend ∧ p_loop s ≠ PStopped.
Proof.
  revert s. induction tr as [|a tr IH] using rev_ind; intros s H Hn.
  - inversion H; subst. unfold pst0. by destruct (new_aggregator d r).
  - apply psteps_app in H as (m & H1 & H2). apply psteps_one in H2. apply Forall_app in Hn as [Hn Ha]. apply Forall_cons in Ha as [Ha _].
    destruct (IH m H1 Hn) as (E1 & E2 & E3 & E4). inversion H2; subst; cbn in *; try done; try set_solver.
Qed.
Lemma poll_queue_served d r tr s : 0 < d → d ≤ r → psteps (pst0 d r) tr s → no_shut tr →
  ∃ tr' s', Forall loop_step tr' ∧ Forall not_emit_p tr' ∧ psteps s tr' s' ∧ p_q s' = [].
Proof.
  intros Hd Hr H Hn.
  assert (G : ∀ q tr a wr wd wb, psteps (pst0 d r) tr (PSt q PRun a wr wd wb) →
    ∃ tr' s', Forall loop_step tr' ∧ Forall not_emit_p tr' ∧ psteps (PSt q PRun a wr wd wb) tr' s' ∧ p_q s' = []).
  { intros q. induction q as [|c q IH]; intros tr0 a wr wd wb H0.
    { exists [], (PSt [] PRun a wr wd wb). split; [constructor|]. split; [constructor|]. split; [constructor|done]. }
    destruct (pinv_reach _ _ _ _ H0) as [_ _ Ha]. destruct Ha as (a0 & A1 & A2); [done|]. cbn in A2.
    destruct (step_ok d r _ _ _ 0 (OpCmd c) Hd Hr A1 A2) as (a' & x & E).
    pose proof (Ps_take c q a a' x wr wd wb 0 E) as St.
    destruct (IH (tr0 ++ [PTake 0 c]) a' wr wd wb) as (tr' & s' & F1 & F2 & F3 & F4).
    { apply psteps_app. eexists. split; [exact H0|by apply psteps_one]. }
    exists (PTake 0 c :: tr'), s'. split; [by constructor|]. split; [by constructor|]. split; [by econstructor|done]. }
  destruct (no_shut_inv _ _ _ _ H Hn) as (_ & _ & N1 & N2). pose proof (poll_alive _ _ _ _ Hd Hr H) as Hal.
  destruct s as [q l a wr wd wb]; cbn in N1, N2. destruct l as [|j o| | |]; try done.
  - by eapply G.
  - pose proof (Ps_read_ret q a o wr wd wb j) as St.
    destruct (G q (tr ++ [PReadRet j o]) a wr wd wb) as (tr' & s' & F1 & F2 & F3 & F4).
    { apply psteps_app. eexists. split; [exact H|by apply psteps_one]. }
    exists (PReadRet j o :: tr'), s'. split; [by constructor|]. split; [by constructor|]. split; [by econstructor|done].
Qed.

(** ** Steps of one sink are steps of the process *)
Lemma lift_statsd cs k o tr : ∀ ks l l', q_alive (Proc cs ks) → ks !! k = Some (KStatsd o l) → Forall not_emit_s tr → lsteps o l tr l' →
  qsteps (Proc cs ks) (map (QStatsd k) tr) (Proc cs (<[k := KStatsd o l']> ks)).
Proof.
  induction tr as [|a tr IH]; intros ks l l' Ha Hk Hn H.
  - inversion H; subst. cbn. rewrite list_insert_id by done. constructor.
  - apply Forall_cons in Hn as [Hna Hn]. inversion H as [|? ? m ? ? Hs Ht]; subst. cbn [map].
    econstructor; [by eapply Qs_statsd|].
    replace (<[k:=KStatsd o l']> ks) with (<[k:=KStatsd o l']> (<[k:=KStatsd o m]> ks)) by apply list_insert_insert.
    eapply IH; [|by rewrite list_lookup_insert by (by eapply lookup_lt_Some)|done|done].
    unfold q_alive in *. cbn in *. by apply Forall_insert.
Qed.
Lemma lift_poll cs k d r tr : 0 < d → d ≤ r → ∀ tr0 ks p p', psteps (pst0 d r) tr0 p →
  q_alive (Proc cs ks) → ks !! k = Some (KPoll p) → Forall not_emit_p tr → psteps p tr p' →
  qsteps (Proc cs ks) (map (QPoll k) tr) (Proc cs (<[k := KPoll p']> ks)).
Proof.
  intros Hd Hr. induction tr as [|a tr IH]; intros tr0 ks p p' H0 Ha Hk Hn H.
  - inversion H; subst. cbn. rewrite list_insert_id by done. constructor.
  - apply Forall_cons in Hn as [Hna Hn]. inversion H as [|? ? m ? ? Hs Ht]; subst. cbn [map].
    assert (Hm : psteps (pst0 d r) (tr0 ++ [a]) m) by (apply psteps_app; exists p; split; [done|by apply psteps_one]).
    econstructor; [by eapply Qs_poll|].
    replace (<[k:=KPoll p']> ks) with (<[k:=KPoll p']> (<[k:=KPoll m]> ks)) by apply list_insert_insert.
    eapply IH; [exact Hm| |by rewrite list_lookup_insert by (by eapply lookup_lt_Some)|done|done].
    unfold q_alive in *. cbn in *. apply Forall_insert; [done|]. by eapply poll_alive.
Qed.

Lemma lift_librato cs k c tr : ∀ ks l l', q_alive (Proc cs ks) → ks !! k = Some (KLibrato c l) → Forall not_emit_l tr → gosteps c l tr l' →
  qsteps (Proc cs ks) (map (QLibrato k) tr) (Proc cs (<[k := KLibrato c l']> ks)).
Proof.
  induction tr as [|a tr IH]; intros ks l l' Ha Hk Hn H.
  - inversion H; subst. cbn. rewrite list_insert_id by done. constructor.
  - apply Forall_cons in Hn as [Hna Hn]. inversion H as [|? ? m ? ? Hs Ht]; subst. cbn [map].
    econstructor; [by eapply Qs_librato|].
    replace (<[k:=KLibrato c l']> ks) with (<[k:=KLibrato c l']> (<[k:=KLibrato c m]> ks)) by apply list_insert_insert.
    eapply IH; [|by rewrite list_lookup_insert by (by eapply lookup_lt_Some)|done|done].
    unfold q_alive in *. cbn in *. by apply Forall_insert.
Qed.
Lemma lift_bugsnag cs k tr : ∀ ks l l', q_alive (Proc cs ks) → ks !! k = Some (KBugsnag l) → Forall not_emit_b tr → MBugsnag.bsteps l tr l' →
  qsteps (Proc cs ks) (map (QBugsnag k) tr) (Proc cs (<[k := KBugsnag l']> ks)).
Proof.
  induction tr as [|a tr IH]; intros ks l l' Ha Hk Hn H.
  - inversion H; subst. cbn. rewrite list_insert_id by done. constructor.
  - apply Forall_cons in Hn as [Hna Hn]. inversion H as [|? ? m ? ? Hs Ht]; subst. cbn [map].
    econstructor; [by eapply Qs_bugsnag|].
    replace (<[k:=KBugsnag l']> ks) with (<[k:=KBugsnag l']> (<[k:=KBugsnag m]> ks)) by apply list_insert_insert.
    eapply IH; [|by rewrite list_lookup_insert by (by eapply lookup_lt_Some)|done|done].
    unfold q_alive in *. cbn in *. by apply Forall_insert.
Qed.

(** ** The Librato and Bugsnag sinks empty their queues *)
Lemma no_gstop_part k tr : nobody_stops tr → Forall (λ a, match a with GStop _ => False | _ => True end) (librato_part k tr).
Proof.
  induction 1 as [|a tr Ha _ IH]; [constructor|]. unfold librato_part. destruct a as [g k' c e|g|k' a|k' a|k' a|k' a]; cbn; try exact IH.
  - case_decide; [constructor; [done|exact IH]|exact IH].
  - case_decide; [constructor; [by destruct a|exact IH]|exact IH].
Qed.
Lemma no_shutdown_part k tr : nobody_stops tr → Forall (λ a, match a with BShutdown => False | _ => True end) (bugsnag_part k tr).
Proof.
  induction 1 as [|a tr Ha _ IH]; [constructor|]. unfold bugsnag_part. destruct a as [g k' c e|g|k' a|k' a|k' a|k' a]; cbn; try exact IH.
  - case_decide; [|exact IH]. destruct (bug_cmd c e); cbn; [constructor; [done|exact IH]|exact IH].
  - case_decide; [constructor; [by destruct a|exact IH]|exact IH].
Qed.
Lemma librato_queue_served c tr g : gosteps c lgo0 tr g → Forall (λ a, match a with GStop _ => False | _ => True end) tr →
  ∃ tr' g', Forall (λ a, a = GTake) tr' ∧ gosteps c g tr' g' ∧ go_q g' = [].
Proof.
  intros H Hn. assert (Hr : go_phase g = LbRun).
  { assert (G : ∀ g0 tr g, gosteps c g0 tr g → Forall (λ a, match a with GStop _ => False | _ => True end) tr → go_phase g0 = LbRun → go_phase g = LbRun).
    { clear. induction 1 as [|g0 a g1 tr g2 Hs _ IH]; intros Hn H0; [done|]. apply Forall_cons in Hn as [Ha Hn]. apply IH; [done|]. by destruct Hs; cbn in *. }
    by eapply G. }
  clear H. destruct g as [q ph s w]. cbn in Hr. subst ph. revert s. induction q as [|[job e] q IH]; intros s.
  - exists []. eexists. split; [constructor|]. split; [constructor|done].
  - destruct (IH (lib_process c s job e)) as (tr' & g' & F1 & F2 & F3). exists (GTake :: tr'), g'.
    split; [by constructor|]. split; [|done]. econstructor; [constructor|done].
Qed.
Lemma bugsnag_queue_served tr g : MBugsnag.bsteps bq0 tr g → Forall (λ a, match a with BShutdown => False | _ => True end) tr →
  ∃ tr' g', Forall (λ a, a = BNotify) tr' ∧ MBugsnag.bsteps g tr' g' ∧ q_chan g' = [].
Proof.
  intros H Hn. assert (Hr : q_done g = false).
  { assert (G : ∀ g0 tr g, MBugsnag.bsteps g0 tr g → Forall (λ a, match a with BShutdown => False | _ => True end) tr → q_done g0 = false → q_done g = false).
    { clear. induction 1 as [|g0 a g1 tr g2 Hs _ IH]; intros Hn H0; [done|]. apply Forall_cons in Hn as [Ha Hn]. apply IH; [done|]. by destruct Hs; cbn in *. }
    by eapply G. }
  clear H. destruct g as [q se dn]. cbn in Hr. subst dn. revert se. induction q as [|x q IH]; intros se.
  - exists []. eexists. split; [constructor|]. split; [constructor|done].
  - destruct (IH (se ++ [x])) as (tr' & g' & F1 & F2 & F3). exists (BNotify :: tr'), g'.
    split; [by constructor|]. split; [|done]. econstructor; [constructor|done].
Qed.

(** ** Usable sinks stay alive *)
Lemma no_shut_part k tr : nobody_stops tr → no_shut (poll_part k tr).
Proof.
  induction 1 as [|a tr Ha _ IH]; [constructor|]. unfold poll_part. destruct a as [g k' c e|g|k' a|k' a|k' a|k' a]; cbn; try exact IH.
  - case_decide; [constructor; [done|exact IH]|exact IH].
  - case_decide; [constructor; [by destruct a|exact IH]|exact IH].
Qed.
Lemma no_stop_part k tr : nobody_stops tr → no_call is_stop_call (statsd_part k tr).
Proof.
  induction 1 as [|a tr Ha _ IH]; [constructor|]. unfold statsd_part. destruct a as [g k' c e|g|k' a|k' a|k' a|k' a]; cbn; try exact IH.
  - case_decide; [constructor; [done|exact IH]|exact IH].
  - case_decide; [constructor; [by destruct a|exact IH]|exact IH].
Qed.
Lemma stay_alive progs ks tr s : Forall new_sink ks → Forall usable ks → qsteps (proc0 progs ks) tr s → q_alive s.
Proof.
  intros Hf Hu H. destruct (sinks_run _ _ _ H) as [El I]. apply Forall_lookup. intros k y Hy. destruct y as [p|o l|c l|b|l]; try done.
  destruct (ks !! k) as [x|] eqn:Hx; [|apply lookup_ge_None in Hx; apply lookup_lt_Some in Hy; cbn in El; lia].
  destruct (I k x Hx) as (y & Ey & Hk). rewrite Hy in Ey. injection Ey as <-. destruct x as [p0|o l|c l|b|l]; cbn in Hk; try done.
  rewrite Forall_lookup in Hu. destruct (Hu k _ Hx) as (d & r & Hd & Hr & ->). by eapply poll_alive.
Qed.

(** ** One step of a caller *)
Definition advance (n : nat) (c : caller) : caller :=
  match cl_rest c with
  | [] => c
  | _ :: rest => if decide (cl_at c < n)%nat then Caller (S (cl_at c)) (cl_rest c) else Caller 0 rest
  end.
Lemma caller_advances progs ks tr s g at_ c rest : Forall new_sink ks → Forall usable ks → qsteps (proc0 progs ks) tr s → nobody_stops tr →
  q_callers s !! g = Some (Caller at_ (c :: rest)) →
  ∃ tr' s', Forall own_step tr' ∧ qsteps s tr' s' ∧ q_callers s' = <[g := advance (length ks) (Caller at_ (c :: rest))]> (q_callers s).
Proof.
  intros Hf Hu H Hn Hg. pose proof (stay_alive _ _ _ _ Hf Hu H) as Ha. destruct s as [cs sk]. cbn [q_callers] in *.
  destruct (sinks_run _ _ _ H) as [El I]. cbn [q_sinks proc0] in El, I.
  assert (Hat : (at_ ≤ length ks)%nat).
  { destruct (cinv_run _ _ _ _ H) as [_ I2 I3]. cbn in I2, I3. destruct (progs !! g) as [prog|] eqn:Hp.
    - destruct (I3 g prog Hp) as (at' & dn & rest' & E1 & _ & _ & E4 & _). rewrite Hg in E1. by injection E1 as -> _.
    - apply lookup_ge_None in Hp. apply lookup_lt_Some in Hg. lia. }
  unfold advance. cbn [cl_rest cl_at]. case_decide as Hlt.
  - destruct (lookup_lt_is_Some_2 ks at_ Hlt) as [x Hx]. destruct (I at_ x Hx) as (y & Hy & Hk).
    assert (Done : ∀ tr1 y', Forall own_step tr1 → qsteps (Proc cs sk) tr1 (Proc cs (<[at_ := y']> sk)) →
        (∃ y'', takes_cmd y' (c at_) (sc_new c at_) y'') →
        ∃ tr' s', Forall own_step tr' ∧ qsteps (Proc cs sk) tr' s' ∧ q_callers s' = <[g := Caller (S at_) (c :: rest)]> cs).
    { intros tr1 y' Ho Hs [y'' Ht]. exists (tr1 ++ [QEmit g at_ (c at_) (sc_new c at_)]). eexists. split; [apply Forall_app; split; [done|by constructor]|].
      split; [apply qsteps_snoc; eexists; split; [exact Hs|]|]; [eapply Qs_emit; [|done| |exact Ht]|done].
      + eapply (stay_alive progs ks (tr ++ tr1)); [done|done|]. apply qsteps_app. eauto.
      + rewrite list_lookup_insert; [done|]. by eapply lookup_lt_Some. }
    rewrite Forall_lookup in Hf, Hu. specialize (Hf _ _ Hx). specialize (Hu _ _ Hx).
    destruct x as [p|o l|lc l|b|l], y as [p'|o' l'|lc' l'|b'|l']; cbn in Hk; try done.
    + destruct Hu as (d & r & Hd & Hr & ->).
      destruct (poll_queue_served d r _ _ Hd Hr Hk (no_shut_part _ _ Hn)) as (tr1 & p2 & F1 & F2 & F3 & F4).
      assert (Hal : p_alive p2). { eapply (poll_alive d r (poll_part at_ tr ++ tr1)); [done|done|]. apply psteps_app. eauto. }
      apply (Done (map (QPoll at_) tr1) (KPoll p2)).
      * apply Forall_map. exact F1.
      * eapply lift_poll; eauto.
      * eexists. constructor. constructor; [done|]. unfold p_room. rewrite F4. cbn. unfold poll_buff. lia.
    + destruct Hk as [<- Hk]. inversion Hf; subst. destruct (queue_served o _ _ Hk (no_stop_part _ _ Hn)) as (tr1 & l2 & F1 & F2 & F3 & F4).
      apply (Done (map (QStatsd at_) tr1) (KStatsd o l2)).
      * apply Forall_map. exact F1.
      * eapply lift_statsd; [done|exact Hy| |exact F2]. eapply Forall_impl; [exact F1|]. by intros [].
      * eexists. constructor. by constructor.
    + destruct Hk as [<- Hk]. inversion Hf; subst. destruct (librato_queue_served lc _ _ Hk (no_gstop_part _ _ Hn)) as (tr1 & l2 & F1 & F2 & F3).
      apply (Done (map (QLibrato at_) tr1) (KLibrato lc l2)).
      * apply Forall_map. exact F1.
      * eapply lift_librato; [done|exact Hy| |exact F2]. eapply Forall_impl; [exact F1|]. by intros ? ->.
      * destruct l2 as [q ph lb w]. cbn in F3. subst q. eexists. apply Tk_librato. by constructor.
    + inversion Hf; subst. destruct (bugsnag_queue_served _ _ Hk (no_shutdown_part _ _ Hn)) as (tr1 & b2 & F1 & F2 & F3).
      apply (Done (map (QBugsnag at_) tr1) (KBugsnag b2)).
      * apply Forall_map. exact F1.
      * eapply lift_bugsnag; [done|exact Hy| |exact F2]. eapply Forall_impl; [exact F1|]. by intros ? ->.
      * destruct (bug_cmd (c at_) (sc_new c at_)) as [y|] eqn:Eb; eexists; [|by apply Tk_unseen].
        eapply Tk_bugsnag; [done|]. constructor. rewrite F3. cbn. unfold bugsnag_chan_size. lia.
    + apply (Done [] (KOther l')); [constructor| |eexists; constructor]. rewrite list_insert_id by done. constructor.
  - assert (at_ = length ks) as -> by lia. exists [QNext g]. eexists. split; [by constructor|].
    split; [apply qsteps_one; eapply Qs_next; [done|rewrite El; exact Hg]|done].
Qed.

(** ** All calls return *)
Lemma own_nobody tr : Forall own_step tr → nobody_stops tr.
Proof. intros H. eapply Forall_impl; [exact H|]. intros [| |k []|k []|k []|k []]; done. Qed.
Lemma nobody_app a b : nobody_stops a → nobody_stops b → nobody_stops (a ++ b).
Proof. intros H1 H2. by apply Forall_app. Qed.
Lemma caller_finishes progs ks g : Forall new_sink ks → Forall usable ks → ∀ m tr s at_ rest,
  qsteps (proc0 progs ks) tr s → nobody_stops tr → q_callers s !! g = Some (Caller at_ rest) →
  (length rest * S (length ks) + (length ks - at_) ≤ m)%nat →
  ∃ tr' s', Forall own_step tr' ∧ qsteps s tr' s' ∧ q_callers s' = <[g := Caller 0 []]> (q_callers s).
Proof.
  intros Hf Hu m. induction m as [|m IH]; intros tr s at_ rest H Hn Hg Hm.
  all: destruct rest as [|c rest]; [|cbn [length] in Hm; try lia].
  1,2: exists [], s; split; [constructor|]; split; [constructor|];
    assert (at_ = 0%nat) as -> by (destruct (cinv_run _ _ _ _ H) as [_ I2 I3]; destruct (progs !! g) as [prog|] eqn:Hp;
      [destruct (I3 g prog Hp) as (at' & dn & rest' & E1 & _ & _ & _ & E5 & _); rewrite Hg in E1; injection E1 as -> <-; by apply E5
      |apply lookup_ge_None in Hp; apply lookup_lt_Some in Hg; lia]); by rewrite list_insert_id.
  destruct (caller_advances _ _ _ _ _ _ _ _ Hf Hu H Hn Hg) as (t1 & s1 & O1 & S1 & E1).
  pose proof (lookup_lt_Some _ _ _ Hg) as Lg.
  destruct (decide (at_ < length ks)%nat) as [Hlt|Hge].
  - destruct (IH (tr ++ t1) s1 (S at_) (c :: rest)) as (t2 & s2 & O2 & S2 & E2).
    + apply qsteps_app. eauto.
    + apply nobody_app; [done|by apply own_nobody].
    + rewrite E1, list_lookup_insert by done. unfold advance. cbn. by rewrite decide_True.
    + cbn [length]. lia.
    + exists (t1 ++ t2), s2. split; [by apply Forall_app|]. split; [apply qsteps_app; eauto|]. by rewrite E2, E1, list_insert_insert.
  - destruct (IH (tr ++ t1) s1 0%nat rest) as (t2 & s2 & O2 & S2 & E2).
    + apply qsteps_app. eauto.
    + apply nobody_app; [done|by apply own_nobody].
    + rewrite E1, list_lookup_insert by done. unfold advance. cbn. by rewrite decide_False.
    + lia.
    + exists (t1 ++ t2), s2. split; [by apply Forall_app|]. split; [apply qsteps_app; eauto|]. by rewrite E2, E1, list_insert_insert.
Qed.
Lemma thm_all_return progs ks tr s : Forall new_sink ks → Forall usable ks → qsteps (proc0 progs ks) tr s → nobody_stops tr →
  ∃ tr' s', Forall own_step tr' ∧ qsteps s tr' s' ∧ all_returned progs (tr ++ tr').
Proof.
  intros Hf Hu H Hn.
  assert (G : ∀ m, (m ≤ length progs)%nat → ∃ tr' s', Forall own_step tr' ∧ qsteps s tr' s' ∧
      ∀ g, (g < m)%nat → q_callers s' !! g = Some (Caller 0 [])).
  { induction m as [|m IH]; intros Hm.
    - exists [], s. split; [constructor|]. split; [constructor|]. intros; lia.
    - destruct IH as (t1 & s1 & O1 & S1 & E1); [lia|].
      assert (H1 : qsteps (proc0 progs ks) (tr ++ t1) s1) by (apply qsteps_app; eauto).
      destruct (cinv_run _ _ _ _ H1) as [_ I2 _]. destruct (lookup_lt_is_Some_2 (q_callers s1) m ltac:(lia)) as [[at_ rest] Hc].
      destruct (caller_finishes progs ks m Hf Hu _ _ _ _ _ H1 (nobody_app _ _ Hn (own_nobody _ O1)) Hc (le_n _)) as (t2 & s2 & O2 & S2 & E2).
      exists (t1 ++ t2), s2. split; [by apply Forall_app|]. split; [apply qsteps_app; eauto|]. intros g Hg. rewrite E2.
      destruct (decide (g = m)) as [->|Hne]; [by rewrite list_lookup_insert by lia|]. rewrite list_lookup_insert_ne by done. apply E1. lia. }
  destruct (G (length progs) (le_n _)) as (t & s' & O & St & E). exists t, s'. split; [done|]. split; [done|].
  intros g prog Hg. assert (H1 : qsteps (proc0 progs ks) (tr ++ t) s') by (apply qsteps_app; eauto).
  destruct (cinv_run _ _ _ _ H1) as [_ _ I3]. destruct (I3 g prog Hg) as (at' & dn & rest' & E1 & -> & -> & _).
  rewrite E in E1 by (by eapply lookup_lt_Some). injection E1 as _ <-. by rewrite app_nil_r.
Qed.
