(** * Proofs: Drain calls that overlap (C71) *)
From Verif Require Import SStatsdLoop PStatsd PStatsdLoop PStatsdEx.

(** a drain about to be announced has processed [base] *)
Definition drained (o : opts) (base : list cmd) (tr : list sact) (s : lst) : Prop :=
  l_loop s = LDrainSend → ∃ h, sd_run o sd0 h = Ok (l_sd s) ∧ sop_cmds h ++ q_metrics (l_q s) = accepted tr ∧ base `prefix_of` sop_cmds h.

Lemma drained_step o base tr s a s' : linv o tr s → base `prefix_of` accepted tr → lstep o s a s' →
  drained o base tr s ∨ a = ADrainEmpty ∨ (∃ j, a = ADrainDone j) → drained o base (tr ++ [a]) s'.
Proof.
  intros HI Hb St HD HL. pose proof (linv_step o tr s a s' HI St) as HI'.
  assert (Hkeep : l_loop s = LDrainSend → l_sd s' = l_sd s → (∃ c, l_q s' = l_q s ++ [c] ∧ q_metrics [c] = accepted [a]) →
    a ≠ ADrainEmpty → (∀ j, a ≠ ADrainDone j) →
    ∃ h, sd_run o sd0 h = Ok (l_sd s') ∧ sop_cmds h ++ q_metrics (l_q s') = accepted (tr ++ [a]) ∧ base `prefix_of` sop_cmds h).
  { intros E Ed (c&Eq&Ec) N1 N2. destruct HD as [HD|[->|(j&->)]]; [|done|by destruct (N2 j)]. destruct (HD E) as (h&Hr&Ha&Hp).
    exists h. rewrite Ed, Eq, q_metrics_app, accepted_app, <-Ec, app_assoc, Ha. done. }
  inversion St; subst; cbn [l_loop set_q] in *; try discriminate HL.
  - apply Hkeep; try done. by exists (SMetric c).
  - apply Hkeep; try done. by exists SFlush.
  - apply Hkeep; try done. by exists SDrain.
  - apply Hkeep; try done. by exists SStop.
  - destruct (li_run _ _ _ HI') as (h&Hr&Ha). exists h. split; [done|]. split; [done|]. cbn in Ha. rewrite app_nil_r in Ha. rewrite Ha, accepted_app. by apply prefix_app_r.
Qed.
Lemma drained_steps o base tr2 : ∀ tr s s', linv o tr s → base `prefix_of` accepted tr → lsteps o s tr2 s' →
  drained o base tr s ∨ ADrainEmpty ∈ tr2 ∨ (∃ j, ADrainDone j ∈ tr2) → drained o base (tr ++ tr2) s'.
Proof.
  induction tr2 as [|a tr2 IH]; intros tr s s' HI Hb St HD.
  - inversion St; subst. rewrite app_nil_r. destruct HD as [HD|[HD|(j&HD)]]; [done|by apply elem_of_nil in HD..].
  - inversion St as [|? ? m ? ? H1 H2]; subst. rewrite (cons_middle a tr tr2), app_assoc. eapply IH; [by eapply linv_step| |done|].
    + rewrite accepted_app. by apply prefix_app_r.
    + destruct HD as [HD|[HD|(j&HD)]].
      * left. eapply drained_step; eauto.
      * apply elem_of_cons in HD as [<-|HD]; [|auto]. left. eapply drained_step; eauto.
      * apply elem_of_cons in HD as [HD|HD]; [|eauto]. left. eapply drained_step; eauto.
Qed.
Lemma drains_deliver o tr1 i tr2 s1 s2 s3 :
  lsteps o lst0 tr1 s1 → lsteps o s1 (ADrainCall i :: tr2) s2 → lstep o s2 (ADrainDone i) s3 →
  l_loop s1 ≠ LDrainSend ∨ ADrainEmpty ∈ tr2 ∨ (∃ j, ADrainDone j ∈ tr2) →
  delivered o tr1 (tr1 ++ ADrainCall i :: tr2) s3.
Proof.
  intros H1 H2 H3 Hc. pose proof (linv_reach _ _ _ H1) as I1.
  assert (linv o (tr1 ++ ADrainCall i :: tr2) s2) as I2 by (by eapply linv_steps).
  assert (drained o (accepted tr1) (tr1 ++ ADrainCall i :: tr2) s2) as HD.
  { eapply drained_steps; [exact I1|done|exact H2|]. destruct Hc as [Hc|[Hc|(j&Hc)]].
    - left. by intros ?.
    - right. left. by right.
    - right. right. exists j. by right. }
  pose proof (li_flush _ _ _ I2) as Hf. inversion H3; subst. cbn [l_loop l_sd l_q] in *.
  destruct (HD eq_refl) as (h&Hr&Ha&Hp). cbn [l_sd l_q] in *. exists (length (sop_cmds h)). split_and!.
  - by apply prefix_length.
  - rewrite <-Ha, app_length. lia.
  - by apply Hf.
  - cbn [l_sd]. rewrite (prefix_take_len _ _ _ Ha). destruct (run_sent o h d Hr) as [HS _]. by rewrite (Hf eq_refl) in HS.
Qed.
(** one of the conditions, as callers see it: nobody waits in Drain *)
Lemma nobody_waits o tr s : lsteps o lst0 tr s → l_wd s = [] → l_loop s ≠ LDrainSend.
Proof. intros H Hw E. pose proof (li_d _ _ _ (linv_reach _ _ _ H)) as Hd. rewrite Hw, E in Hd. cbn in Hd. lia. Qed.
Lemma first_drain_delivers o tr1 i tr2 s1 s2 s3 :
  lsteps o lst0 tr1 s1 → l_wd s1 = [] → lsteps o s1 (ADrainCall i :: tr2) s2 → lstep o s2 (ADrainDone i) s3 →
  delivered o tr1 (tr1 ++ ADrainCall i :: tr2) s3.
Proof. intros H1 Hw H2 H3. eapply drains_deliver; [done..|]. left. by eapply nobody_waits. Qed.
Definition td_e : sd := Eval vm_compute in match process_cmd ex_o sd0 (SMetric (CEvent "j" "e")) with Ok d => d | Crash _ => sd0 end.
Definition td_f : sd := Eval vm_compute in match process_cmd ex_o td_e (SMetric (CEvent "j" "f")) with Ok d => d | Crash _ => sd0 end.
Definition td_end : sd := Eval vm_compute in sd_flush td_f.
Lemma td_e_ok : process_cmd ex_o sd0 (SMetric (CEvent "j" "e")) = Ok td_e. Proof. vm_compute. reflexivity. Qed.
Lemma td_f_ok : process_cmd ex_o td_e (SMetric (CEvent "j" "f")) = Ok td_f. Proof. vm_compute. reflexivity. Qed.
Lemma td_end_ok : sd_flush td_f = td_end. Proof. vm_compute. reflexivity. Qed.
Local Opaque td_e td_f td_end.
Lemma two_drains : ∃ s1 s2 s3,
  lsteps ex_o lst0 [AEmit (CEvent "j" "e"); ADrainCall 1; AEmit (CEvent "j" "f")] s1 ∧ l_loop s1 ≠ LDrainSend ∧ l_wd s1 = [1%nat] ∧
  lsteps ex_o s1 [ADrainCall 2; ATake; ATake; ADrainTake; ADrainTake; ADrainEmpty] s2 ∧ lstep ex_o s2 (ADrainDone 2) s3 ∧
  sd_sent (l_sd s3) = ["pre.e:1|c" +:+ nl +:+ "pre.j.e:1|c" +:+ nl +:+ "pre.f:1|c" +:+ nl +:+ "pre.j.f:1|c" +:+ nl].
Proof.
  set (e := SMetric (CEvent "j" "e")). set (f := SMetric (CEvent "j" "f")).
  exists (LSt [e; SDrain; f] LRun sd0 [1%nat] []), (LSt [] LDrainSend td_end [2%nat; 1%nat] []), (LSt [] LRun td_end [1%nat] []).
  split; [|split; [discriminate|split; [reflexivity|split; [|split]]]].
  - eapply Ls_cons; [apply St_emit; reflexivity|]. eapply Ls_cons; [apply St_drain_call; [reflexivity|apply not_elem_of_nil..]|].
    eapply Ls_cons; [apply St_emit; reflexivity|]. apply Ls_nil.
  - eapply Ls_cons; [apply St_drain_call; [reflexivity|cbn; set_solver|apply not_elem_of_nil]|].
    eapply Ls_cons; [apply St_take_metric; exact td_e_ok|]. eapply Ls_cons; [apply St_take_drain|].
    eapply Ls_cons; [apply St_drain_take; exact td_f_ok|]. eapply Ls_cons; [apply St_drain_take; reflexivity|].
    rewrite <-td_end_ok. eapply Ls_cons; [apply St_drain_empty|]. apply Ls_nil.
  - apply (St_drain_done ex_o [] td_end [2%nat; 1%nat] [] 2). by left.
  - vm_compute. reflexivity.
Qed.
