(** * Proofs about the StatsD loop *)
From Verif Require Import SStatsdLoop PStatsd.

Lemma lsteps_app o tr1 : ∀ s tr2 s', lsteps o s (tr1 ++ tr2) s' ↔ ∃ m, lsteps o s tr1 m ∧ lsteps o m tr2 s'.
Proof.
  induction tr1 as [|a tr1 IH]; intros s tr2 s'; simpl.
  - split; [intros H; exists s; split; [constructor|done]|]. intros (m & H & ?). inversion H; subst; done.
  - split.
    + intros H. inversion H as [|? ? m ? ? H1 H2]; subst. apply IH in H2 as (m2 & ? & ?).
      exists m2. split; [econstructor; eauto|done].
    + intros (m & H & ?). inversion H as [|? ? m1 ? ? H1 H2]; subst. econstructor; [eauto|]. apply IH. eauto.
Qed.
Lemma lsteps_one o s a s' : lsteps o s [a] s' ↔ lstep o s a s'.
Proof.
  split; [|intros; econstructor; eauto; constructor].
  intros H. inversion H as [|? ? m ? ? H1 H2]; subst. inversion H2; subst. done.
Qed.

Definition q_metrics (q : list scmd) : list cmd :=
  omap (λ a, match a with SMetric c => Some c | _ => None end) q.
Definition is_d (c : scmd) : bool := match c with SDrain => true | _ => false end.
Definition is_s (c : scmd) : bool := match c with SStop => true | _ => false end.
Definition cnt (f : scmd → bool) (q : list scmd) : nat := length (List.filter f q).
Lemma cnt_app f q1 q2 : cnt f (q1 ++ q2) = (cnt f q1 + cnt f q2)%nat.
Proof. unfold cnt. rewrite List.filter_app, app_length. done. Qed.
Lemma cnt_cons f c q : cnt f (c :: q) = ((if f c then 1 else 0) + cnt f q)%nat.
Proof. unfold cnt. simpl. destruct (f c); done. Qed.

Lemma cnt_nil f : cnt f [] = 0%nat.
Proof. done. Qed.

Definition draining (l : lstate) : nat := match l with LDrain | LDrainSend => 1 | _ => 0 end.
Definition stopping (l : lstate) : nat := match l with LStopSend => 1 | _ => 0 end.

Lemma remove_notin i l : i ∉ l → remove_one i l = l.
Proof. intros H. apply notin_remove. by rewrite <-elem_of_list_In. Qed.
Lemma remove_len i l : NoDup l → i ∈ l → length (remove_one i l) = (length l - 1)%nat.
Proof.
  induction 1 as [|x l Hx Hnd IH]; intros Hi; [by apply elem_of_nil in Hi|].
  unfold remove_one in *. simpl. destruct (Nat.eq_dec i x) as [->|].
  - rewrite remove_notin by done. simpl. lia.
  - apply elem_of_cons in Hi as [?|Hi]; [done|]. simpl. rewrite IH by done.
    destruct l; [by apply elem_of_nil in Hi|]. simpl. lia.
Qed.
Lemma remove_nodup i l : NoDup l → NoDup (remove_one i l).
Proof.
  induction 1 as [|x l Hx Hnd IH]; [constructor|]. unfold remove_one in *. simpl. destruct (Nat.eq_dec i x); [done|].
  constructor; [|done]. rewrite elem_of_list_In. intros H. apply in_remove in H as [H _]. by apply Hx, elem_of_list_In.
Qed.
Lemma remove_in i j l : j ∈ remove_one i l ↔ j ∈ l ∧ j ≠ i.
Proof.
  unfold remove_one. rewrite !elem_of_list_In. split.
  - intros H. apply in_remove in H. tauto.
  - intros [? ?]. apply in_in_remove; auto.
Qed.

(** what holds after every execution *)
Record linv (o : opts) (tr : list sact) (s : lst) : Prop := {
  li_run : ∃ h, sd_run o sd0 h = Ok (l_sd s) ∧ sop_cmds h ++ q_metrics (l_q s) = accepted tr;
  li_ddup : NoDup (l_wd s);
  li_sdup : NoDup (l_ws s);
  li_d : (cnt is_d (l_q s) + draining (l_loop s) ≤ length (l_wd s))%nat;
  li_s : (cnt is_s (l_q s) + stopping (l_loop s) ≤ length (l_ws s))%nat;
  li_flush : l_loop s = LDrainSend → sd_udp (l_sd s) = "" }.

Lemma accepted_app a b : accepted (a ++ b) = accepted a ++ accepted b.
Proof. apply omap_app. Qed.
Lemma q_metrics_app a b : q_metrics (a ++ b) = q_metrics a ++ q_metrics b.
Proof. apply omap_app. Qed.

Lemma run_cmd o h d c d' : sd_run o sd0 h = Ok d → process_cmd o d (SMetric c) = Ok d' →
  sd_run o sd0 (h ++ [DoCmd c]) = Ok d' ∧ sop_cmds (h ++ [DoCmd c]) = sop_cmds h ++ [c].
Proof.
  intros H1 H2. rewrite sd_run_app, H1, sop_cmds_app. cbn [rbind sd_run sd_step]. rewrite H2. done.
Qed.
Lemma run_flush o h d : sd_run o sd0 h = Ok d →
  sd_run o sd0 (h ++ [DoFlush]) = Ok (sd_flush d) ∧ sop_cmds (h ++ [DoFlush]) = sop_cmds h.
Proof.
  intros H1. rewrite sd_run_app, H1, sop_cmds_app. cbn [rbind sd_run sd_step]. by rewrite app_nil_r.
Qed.
Lemma flush_empty d : sd_udp (sd_flush d) = "".
Proof.
  unfold sd_flush. case_match eqn:E; [done|]. apply zlen_0. pose proof (zlen_nonneg (sd_udp d)). lia.
Qed.

Lemma linv_step o tr s a s' : linv o tr s → lstep o s a s' → linv o (tr ++ [a]) s'.
Proof.
  intros [Hr Hnd Hns Hd Hs Hf] St. destruct Hr as (h & Hr & Hacc).
  inversion St; subst; simpl in *; constructor; simpl in *;
    rewrite ?cnt_app, ?cnt_cons in *; simpl in *; unfold cnt in *; simpl in *; try done; try lia.
  all: try (exists h; split; [done|]; rewrite accepted_app, ?q_metrics_app, ?app_nil_r, <-Hacc; simpl; rewrite ?app_nil_r, ?app_assoc; done).
  all: try (by constructor).
  all: try (by apply remove_nodup).
  all: try (rewrite remove_len by done; lia).
  - destruct (run_flush o h d Hr) as [H1 H2]. exists (h ++ [DoFlush]). split; [done|]. rewrite H2, accepted_app, app_nil_r. done.
  - destruct (run_cmd o h d c d' Hr H) as [H1 H2]. exists (h ++ [DoCmd c]). split; [done|].
    rewrite H2, accepted_app, app_nil_r, <-Hacc, <-app_assoc. done.
  - destruct c as [c| | |].
    + destruct (run_cmd o h d c d' Hr H) as [H1 H2]. exists (h ++ [DoCmd c]). split; [done|].
      rewrite H2, accepted_app, app_nil_r, <-Hacc, <-app_assoc. done.
    + simpl in H. injection H as <-. exists h. rewrite accepted_app, app_nil_r. done.
    + simpl in H. injection H as <-. exists h. rewrite accepted_app, app_nil_r. done.
    + simpl in H. injection H as <-. exists h. rewrite accepted_app, app_nil_r. done.
  - destruct (run_flush o h d Hr) as [H1 H2]. exists (h ++ [DoFlush]). split; [done|]. rewrite H2, accepted_app, Hacc. simpl. by rewrite app_nil_r.
  - intros _. apply flush_empty.
Qed.

Lemma linv_init o : linv o [] lst0.
Proof. constructor; simpl; try done; try constructor. exists []. done. Qed.
Lemma linv_steps o tr' : ∀ tr s s', linv o tr s → lsteps o s tr' s' → linv o (tr ++ tr') s'.
Proof.
  induction tr' as [|a tr' IH]; intros tr s s' Hi H; inversion H as [|? ? m ? ? H1 H2]; subst; [by rewrite app_nil_r|].
  rewrite (cons_middle a tr tr'), app_assoc. eapply IH; [|done]. by eapply linv_step.
Qed.
Lemma linv_reach o tr s : lsteps o lst0 tr s → linv o tr s.
Proof. apply (linv_steps o tr [] lst0 s), linv_init. Qed.

(** a command (Drain or Stop) on its way through the queue: either it waits
    behind everything accepted before it, or it has been taken and all of that
    was processed *)
Inductive phase (o : opts) (f : scmd → bool) (busy : lstate → bool) (base acc : list cmd) (s : lst) : Prop :=
  | Ph_waiting h q1 m q2 : sd_run o sd0 h = Ok (l_sd s) → sop_cmds h ++ q_metrics (l_q s) = acc →
      l_q s = q1 ++ m :: q2 → f m = true → cnt f q1 = 0%nat → cnt f q2 = 0%nat → busy (l_loop s) = false →
      base `prefix_of` sop_cmds h ++ q_metrics q1 → phase o f busy base acc s
  | Ph_taken h : sd_run o sd0 h = Ok (l_sd s) → sop_cmds h ++ q_metrics (l_q s) = acc →
      cnt f (l_q s) = 0%nat →
      base `prefix_of` sop_cmds h → phase o f busy base acc s.
Arguments Ph_waiting {o f busy base acc s}.
Arguments Ph_taken {o f busy base acc s}.

Definition dbusy (l : lstate) : bool := match l with LDrain | LDrainSend => true | _ => false end.
Definition sbusy (l : lstate) : bool := match l with LStopSend | LDone => true | _ => false end.

Ltac accs := rewrite ?accepted_app, ?q_metrics_app, ?app_nil_r in *; simpl in *; rewrite ?app_nil_r, ?app_assoc in *; try done; try congruence.

Lemma phase_step_d o base tr s a s' :
  phase o is_d dbusy base (accepted tr) s →
  lstep o s a s' → is_drain_call a = false →
  (∀ i, a ≠ ADrainDone i) →
  phase o is_d dbusy base (accepted (tr ++ [a])) s'.
Proof.
  intros Hp St Hn Hnd. inversion Hp as [h q1 m q2 Hr Hacc Hq Hm H1 H2 Hb Hpre|h Hr Hacc Hc Hpre].
  - inversion St; subst; simpl in *; try done; try discriminate.
    + (* emit *) apply (Ph_waiting h q1 m (q2 ++ [SMetric c])); simpl; try done.
      * accs.
      * rewrite Hq, <-app_assoc. done.
      * rewrite cnt_app, H2. done.
    + apply (Ph_waiting h q1 m (q2 ++ [SFlush])); simpl; try done.
      * accs.
      * rewrite Hq, <-app_assoc. done.
      * rewrite cnt_app, H2. done.
    + apply (Ph_waiting h q1 m (q2 ++ [SStop])); simpl; try done.
      * accs.
      * rewrite Hq, <-app_assoc. done.
      * rewrite cnt_app, H2. done.
    + (* take drain *) destruct q1 as [|c q1]; simpl in Hq; injection Hq as ? ?; subst.
      * apply (Ph_taken h); simpl; try done; accs.
      * rewrite cnt_cons in H1. simpl in H1. lia.
    + destruct q1 as [|c q1]; simpl in Hq; injection Hq as ? ?; subst; [done|].
      apply (Ph_waiting h q1 m q2); simpl; try done; accs.
    + destruct q1 as [|c q1]; simpl in Hq; injection Hq as ? ?; subst; [done|].
      destruct (run_flush o h d Hr) as [HA HB].
      eapply (Ph_waiting _ q1 m q2); simpl; try done; rewrite HB; try done; accs.
    + destruct q1 as [|c' q1]; simpl in Hq; injection Hq as ? ?; subst; [done|].
      destruct (run_cmd o h d _ d' Hr H) as [HA HB].
      eapply (Ph_waiting _ q1 m q2); simpl; try done; rewrite HB, <-app_assoc; try done; accs.
    + apply (Ph_waiting h q1 m q2); simpl; try done; accs.
  - inversion St; subst; simpl in *; try done; try discriminate.
    all: rewrite ?cnt_cons in Hc; simpl in Hc; try lia.
    all: try (apply (Ph_taken h); simpl; rewrite ?cnt_app; simpl; try done; rewrite ?cnt_cons, ?cnt_nil; simpl; try done; try lia; accs; fail).
    + destruct (run_flush o h d Hr) as [HA HB]. eapply Ph_taken; simpl; try done; rewrite HB; try done; accs.
    + destruct (run_cmd o h d _ d' Hr H) as [HA HB]. eapply Ph_taken; simpl; try done; rewrite HB; [accs; by rewrite <-Hacc, <-app_assoc|]. by apply prefix_app_r.
    + destruct c as [c| | |]; simpl in *; try (injection H as <-); try (apply (Ph_taken h); simpl; try done; accs; fail).
      destruct (run_cmd o h d _ d' Hr H) as [HA HB]. eapply Ph_taken; simpl; try done; rewrite HB; [accs; by rewrite <-Hacc, <-app_assoc|]. by apply prefix_app_r.
    + destruct (run_flush o h d Hr) as [HA HB]. eapply Ph_taken; simpl; try done; rewrite HB; try done; accs.
Qed.

Lemma drain_phase o tr2 : ∀ base tr s s',
  phase o is_d dbusy base (accepted tr) s →
  lsteps o s tr2 s' → no_call is_drain_call tr2 → (∀ i, ADrainDone i ∉ tr2) →
  phase o is_d dbusy base (accepted (tr ++ tr2)) s'.
Proof.
  induction tr2 as [|a tr2 IH]; intros base tr s s' Hp St Hn Hd; inversion St as [|? ? m ? ? H1 H2]; subst; [by rewrite app_nil_r|].
  inversion Hn; subst. rewrite (cons_middle a tr tr2), app_assoc. eapply IH; [|done|done|].
  - eapply phase_step_d; eauto. intros i ->. apply (Hd i). by left.
  - intros i Hi. apply (Hd i). by right.
Qed.

Lemma run_sent o h d : sd_run o sd0 h = Ok d → packed (sd_sent d) (sd_udp d) (sendable o (sop_cmds h)) ∧ zlen (sd_udp d) ≤ 1440.
Proof. intros H. destruct (sd_run_ok o h) as (d' & E & _ & HS & HL & _). rewrite E in H. injection H as ->. done. Qed.

Lemma wd_empty o tr2 : ∀ s s', lsteps o s tr2 s' → no_call is_drain_call tr2 → l_wd s = [] → l_wd s' = [].
Proof.
  induction tr2 as [|b tr2 IH]; intros m s' H2 Hn Hm; inversion H2 as [|? ? m2 ? ? HA HB]; subst; [done|].
  inversion Hn; subst. eapply IH; [done|done|].
  inversion HA; subst; simpl in *; try done. subst. match goal with H : _ ∈ [] |- _ => by apply elem_of_nil in H end.
Qed.

(** the only waiting drainer while nobody else calls *)
Lemma wd_only o tr2 i : ∀ s s', lsteps o s tr2 s' → no_call is_drain_call tr2 → l_wd s = [i] →
  l_wd s' = [i] ∧ (∀ j, ADrainDone j ∉ tr2) ∨ l_wd s' = [].
Proof.
  induction tr2 as [|a tr2 IH]; intros s s' St Hn Hw; inversion St as [|? ? m ? ? H1 H2]; subst.
  { left. split; [done|]. intros j Hj. by apply elem_of_nil in Hj. }
  inversion Hn as [|? ? Hn1 Hn2]; subst.
  assert (l_wd m = [i] ∧ (∀ j, a ≠ ADrainDone j) ∨ l_wd m = []) as [[Hm Ha]|Hm].
  { inversion H1; subst; simpl in *; try (left; split; [done|congruence]); try done.
    right. subst. unfold remove_one. apply elem_of_list_singleton in H. subst. simpl. destruct (Nat.eq_dec i i); done. }
  - destruct (IH m s' H2 Hn2 Hm) as [[? Hj]|?]; [left|by right]. split; [done|].
    intros j. rewrite elem_of_cons. intros [Hx|Hx]; [by eapply Ha|by eapply Hj].
  - right. by eapply wd_empty.
Qed.

Lemma prefix_take_len {A} (l1 l2 l3 : list A) : l1 ++ l2 = l3 → take (length l1) l3 = l1.
Proof. intros <-. by rewrite take_app. Qed.

Lemma drain_delivers o tr1 i tr2 s1 s2 s3 :
  lsteps o lst0 tr1 s1 → l_wd s1 = [] → lsteps o s1 (ADrainCall i :: tr2) s2 → no_call is_drain_call tr2 →
  lstep o s2 (ADrainDone i) s3 → delivered o tr1 (tr1 ++ ADrainCall i :: tr2) s3.
Proof.
  intros H1 Hw H2 Hn H3.
  pose proof (linv_reach _ _ _ H1) as I1.
  assert (linv o (tr1 ++ ADrainCall i :: tr2) s2) as I2 by (by eapply linv_steps).
  inversion H2 as [|? ? m ? ? HA HB]; subst.
  assert (phase o is_d dbusy (accepted tr1) (accepted (tr1 ++ [ADrainCall i])) m ∧ l_wd m = [i]) as [Hp Hwm].
  { destruct I1 as [(h & Hr & Hacc) _ _ Hd _ _]. rewrite Hw in Hd. simpl in Hd.
    inversion HA; subst. simpl. split; [|by rewrite Hw].
    apply (Ph_waiting h (l_q s1) SDrain []); simpl; try done; try lia.
    - accs.
    - destruct (l_loop s1); simpl in *; try done; lia.
    - rewrite Hacc. done. }
  destruct (wd_only o tr2 i m s2 HB Hn Hwm) as [[Hw2 Hnd]|Hw2].
  2:{ inversion H3; subst. simpl in *. subst. match goal with H : _ ∈ [] |- _ => by apply elem_of_nil in H end. }
  pose proof (drain_phase o tr2 _ _ _ _ Hp HB Hn Hnd) as Hp2.
  rewrite <-app_assoc in Hp2. simpl in Hp2.
  pose proof (li_flush _ _ _ I2) as Hf.
  inversion H3; subst. simpl in *.
  inversion Hp2 as [h q1 mm q2 Hr Hacc Hq Hm HQ1 HQ2 Hb Hpre|h Hr Hacc Hc Hpre]; simpl in *; [done|].
  exists (length (sop_cmds h)). split_and!.
  - by apply prefix_length.
  - rewrite <-Hacc, app_length. lia.
  - by apply Hf.
  - rewrite (prefix_take_len _ _ _ Hacc). destruct (run_sent o h _ Hr) as [HS _]. simpl in *. rewrite Hf in HS by done. done.
Qed.

Lemma drain_empties o tr s s' : lsteps o lst0 tr s → lstep o s ADrainEmpty s' → packed (sd_sent (l_sd s')) "" (sendable o (accepted tr)).
Proof.
  intros H1 H2. pose proof (linv_reach _ _ _ H1) as [(h & Hr & Hacc) _ _ _ _ _]. inversion H2; subst. cbn in *. rewrite app_nil_r in Hacc. rewrite <- Hacc.
  destruct (run_flush o h d Hr) as [HA HB]. destruct (run_sent o _ _ HA) as [HS _]. by rewrite HB, flush_empty in HS.
Qed.

(** Stop *)
Lemma phase_step_s o base tr s a s' :
  phase o is_s sbusy base (accepted tr) s →
  lstep o s a s' → is_stop_call a = false →
  phase o is_s sbusy base (accepted (tr ++ [a])) s'.
Proof.
  intros Hp St Hn. inversion Hp as [h q1 m q2 Hr Hacc Hq Hm H1 H2 Hb Hpre|h Hr Hacc Hc Hpre].
  - inversion St; subst; simpl in *; try done; try discriminate.
    + (* emit *) apply (Ph_waiting h q1 m (q2 ++ [SMetric c])); simpl; try done.
      * accs.
      * rewrite Hq, <-app_assoc. done.
      * rewrite cnt_app, H2. done.
    + apply (Ph_waiting h q1 m (q2 ++ [SFlush])); simpl; try done.
      * accs.
      * rewrite Hq, <-app_assoc. done.
      * rewrite cnt_app, H2. done.
    + apply (Ph_waiting h q1 m (q2 ++ [SDrain])); simpl; try done.
      * accs.
      * rewrite Hq, <-app_assoc. done.
      * rewrite cnt_app, H2. done.
    + destruct q1 as [|c q1]; simpl in Hq; injection Hq as ? ?; subst; [done|].
      apply (Ph_waiting h q1 m q2); simpl; try done; accs.
    + destruct q1 as [|c q1]; simpl in Hq; injection Hq as ? ?; subst.
      * apply (Ph_taken h); simpl; try done; accs.
      * rewrite cnt_cons in H1. simpl in H1. lia.
    + destruct q1 as [|c q1]; simpl in Hq; injection Hq as ? ?; subst; [done|].
      destruct (run_flush o h d Hr) as [HA HB].
      eapply (Ph_waiting _ q1 m q2); simpl; try done; rewrite HB; try done; accs.
    + destruct q1 as [|c' q1]; simpl in Hq; injection Hq as ? ?; subst; [done|].
      destruct (run_cmd o h d _ d' Hr H) as [HA HB].
      eapply (Ph_waiting _ q1 m q2); simpl; try done; rewrite HB, <-app_assoc; try done; accs.
    + destruct q1 as [|c' q1]; simpl in Hq; injection Hq as ? ?; subst.
      * destruct m; try done. simpl in H. injection H as <-. apply (Ph_taken h); simpl; try done; accs.
      * destruct c' as [c'| | |]; simpl in H; try (injection H as <-);
          try (apply (Ph_waiting h q1 m q2); simpl; try done; accs; fail).
        destruct (run_cmd o h d _ d' Hr H) as [HA HB].
        eapply (Ph_waiting _ q1 m q2); simpl; try done; rewrite HB, <-app_assoc; try done; accs.
    + destruct q1; done.
    + apply (Ph_waiting h q1 m q2); simpl; try done; accs.
  - inversion St; subst; simpl in *; try done; try discriminate.
    all: rewrite ?cnt_cons in Hc; simpl in Hc; try lia.
    all: try (apply (Ph_taken h); simpl; rewrite ?cnt_app; simpl; try done; rewrite ?cnt_cons, ?cnt_nil; simpl; try done; try lia; accs; fail).
    + destruct (run_flush o h d Hr) as [HA HB]. eapply Ph_taken; simpl; try done; rewrite HB; try done; accs.
    + destruct (run_cmd o h d _ d' Hr H) as [HA HB]. eapply Ph_taken; simpl; try done; rewrite HB; [accs; by rewrite <-Hacc, <-app_assoc|]. by apply prefix_app_r.
    + destruct c as [c| | |]; simpl in *; try (injection H as <-); try (apply (Ph_taken h); simpl; try done; accs; fail); try lia.
      destruct (run_cmd o h d _ d' Hr H) as [HA HB]. eapply Ph_taken; simpl; try done; rewrite HB; [accs; by rewrite <-Hacc, <-app_assoc|]. by apply prefix_app_r.
    + destruct (run_flush o h d Hr) as [HA HB]. eapply Ph_taken; simpl; try done; rewrite HB; try done; accs.
Qed.

Lemma stop_phase o tr2 : ∀ base tr s s',
  phase o is_s sbusy base (accepted tr) s →
  lsteps o s tr2 s' → no_call is_stop_call tr2 →
  phase o is_s sbusy base (accepted (tr ++ tr2)) s'.
Proof.
  induction tr2 as [|a tr2 IH]; intros base tr s s' Hp St Hn; inversion St as [|? ? m ? ? H1 H2]; subst; [by rewrite app_nil_r|].
  inversion Hn; subst. rewrite (cons_middle a tr tr2), app_assoc. eapply IH; [|done|done].
  eapply phase_step_s; eauto.
Qed.

Lemma ldone_stuck o s a s' : l_loop s = LDone → lstep o s a s' → l_loop s' = LDone ∧ l_sd s' = l_sd s.
Proof. intros H St. inversion St; subst; simpl in *; try done. Qed.
Lemma ldone_stays o tr : ∀ s s', l_loop s = LDone → lsteps o s tr s' → l_loop s' = LDone ∧ l_sd s' = l_sd s.
Proof.
  induction tr as [|a tr IH]; intros s s' H St; inversion St as [|? ? m ? ? HA HB]; subst; [done|].
  destruct (ldone_stuck _ _ _ _ H HA) as [Hm Hsd]. destruct (IH _ _ Hm HB). split; congruence.
Qed.

Lemma stop_processed o tr1 i tr2 s1 s2 s3 :
  lsteps o lst0 tr1 s1 → l_ws s1 = [] → lsteps o s1 (AStopCall i :: tr2) s2 → no_call is_stop_call tr2 →
  lstep o s2 (AStopDone i) s3 → processed o tr1 (tr1 ++ AStopCall i :: tr2) s3.
Proof.
  intros H1 Hw H2 Hn H3.
  pose proof (linv_reach _ _ _ H1) as I1.
  inversion H2 as [|? ? m ? ? HA HB]; subst.
  assert (l_loop s1 ≠ LDone) as Hnd.
  { intros E. assert (l_loop m = LDone) as Em by (by eapply ldone_stuck). 
    destruct (ldone_stays _ _ _ _ Em HB) as [E2 _]. inversion H3; subst. done. }
  assert (phase o is_s sbusy (accepted tr1) (accepted (tr1 ++ [AStopCall i])) m) as Hp.
  { destruct I1 as [(h & Hr & Hacc) _ _ _ Hs _]. rewrite Hw in Hs. simpl in Hs.
    inversion HA; subst. simpl.
    apply (Ph_waiting h (l_q s1) SStop []); simpl; try done; try lia.
    - accs.
    - destruct (l_loop s1); simpl in *; try done; lia.
    - rewrite Hacc. done. }
  pose proof (stop_phase o tr2 _ _ _ _ Hp HB Hn) as Hp2.
  rewrite <-app_assoc in Hp2. simpl in Hp2.
  inversion H3; subst. simpl in *.
  inversion Hp2 as [h q1 mm q2 Hr Hacc Hq Hm HQ1 HQ2 Hb Hpre|h Hr Hacc Hc Hpre]; simpl in *; [done|].
  destruct (run_sent o h _ Hr) as [HS HL]. simpl in *.
  exists (length (sop_cmds h)). split_and!.
  - by apply prefix_length.
  - rewrite <-Hacc, app_length. lia.
  - done.
  - rewrite (prefix_take_len _ _ _ Hacc). done.
Qed.

(** a Drain caller whose command was swallowed waits for ever *)
Lemma swallowed_waits o tr : ∀ s s' i,
  cnt is_d (l_q s) = 0%nat → draining (l_loop s) = 0%nat → i ∈ l_wd s →
  lsteps o s tr s' → no_call is_drain_call tr →
  i ∈ l_wd s' ∧ cnt is_d (l_q s') = 0%nat ∧ draining (l_loop s') = 0%nat.
Proof.
  induction tr as [|a tr IH]; intros s s' i Hc Hd Hi St Hn; inversion St as [|? ? m ? ? HA HB]; subst; [done|].
  inversion Hn; subst. eapply (IH m); try done.
  all: inversion HA; subst; simpl in *; rewrite ?cnt_app, ?cnt_cons in *; simpl in *; try done; try lia.
  all: rewrite Hc; done.
Qed.
Lemma swallowed_stop_waits o tr : ∀ s s' i,
  cnt is_s (l_q s) = 0%nat → stopping (l_loop s) = 0%nat → i ∈ l_ws s →
  lsteps o s tr s' → no_call is_stop_call tr →
  i ∈ l_ws s' ∧ cnt is_s (l_q s') = 0%nat ∧ stopping (l_loop s') = 0%nat.
Proof.
  induction tr as [|a tr IH]; intros s s' i Hc Hd Hi St Hn; inversion St as [|? ? m ? ? HA HB]; subst; [done|].
  inversion Hn; subst. eapply (IH m); try done.
  all: inversion HA; subst; simpl in *; rewrite ?cnt_app, ?cnt_cons in *; simpl in *; try done; try lia.
  all: rewrite Hc; done.
Qed.
(** after the loop has stopped nobody's Drain returns, whatever anyone does *)
Lemma stopped_waits o tr : ∀ s s' i,
  l_loop s = LDone → i ∈ l_wd s → lsteps o s tr s' → i ∈ l_wd s'.
Proof.
  induction tr as [|a tr IH]; intros s s' i Hd Hi St; inversion St as [|? ? m ? ? HA HB]; subst; [done|].
  destruct (ldone_stuck _ _ _ _ Hd HA). eapply (IH m); try done.
  inversion HA; subst; simpl in *; try done. by right.
Qed.

(** progress *)
Definition measure (s : lst) : nat :=
  (3 * length (l_q s) + match l_loop s with LRun => 1 | LDrain => 3 | LDrainSend => 2 | LStopSend => 1 | LDone => 0 end)%nat.
Lemma internal_decreases o s a s' : internal a → lstep o s a s' → (measure s' < measure s)%nat.
Proof. intros Hi St. inversion St; subst; simpl in *; try done; unfold measure; simpl; lia. Qed.
Lemma internal_bounded o tr : ∀ s s', Forall internal tr → lsteps o s tr s' → (length tr ≤ measure s)%nat.
Proof.
  induction tr as [|a tr IH]; intros s s' Hf St; inversion St as [|? ? m ? ? HA HB]; subst; simpl; [lia|].
  inversion Hf; subst. pose proof (internal_decreases _ _ _ _ H1 HA). specialize (IH _ _ H2 HB). lia.
Qed.

(** only caller [i]'s Drain is outstanding, and no Stop *)
Definition one_drain (i : nat) (s : lst) : Prop :=
  cnt is_s (l_q s) = 0%nat ∧ sbusy (l_loop s) = false ∧
  (l_wd s = [i] ∧ (cnt is_d (l_q s) + draining (l_loop s) = 1)%nat ∨ l_wd s = []).
Lemma one_drain_step o i s a s' :
  one_drain i s → lstep o s a s' → is_drain_call a = false → is_stop_call a = false → one_drain i s'.
Proof.
  intros (H1 & H2 & H3) St Hd Hs. inversion St; subst; simpl in *; try done;
    unfold one_drain; simpl; rewrite ?cnt_app, ?cnt_cons, ?cnt_nil in *; simpl in *; rewrite ?cnt_nil in *;
    try (split_and!; [lia|done|]; destruct H3 as [[? ?]|?]; [left; split; [done|unfold cnt in *; lia]|right; done]).
  - split_and!; [lia|done|]. right. destruct H3 as [[-> _]| ->]; [|by apply elem_of_nil in H].
    apply elem_of_list_singleton in H as ->. unfold remove_one. simpl. destruct (Nat.eq_dec i i); done.
Qed.
Definition quiet (a : sact) : Prop := is_drain_call a = false ∧ is_stop_call a = false.
Lemma one_drain_steps o i tr : ∀ s s',
  one_drain i s → lsteps o s tr s' → Forall quiet tr → one_drain i s'.
Proof.
  induction tr as [|a tr IH]; intros s s' H St Hq; inversion St as [|? ? m ? ? HA HB]; subst; [done|].
  inversion Hq as [|? ? [? ?] ?]; subst. eapply IH; [|done|done]. by eapply one_drain_step.
Qed.
Lemma internal_quiet a : internal a → quiet a.
Proof. destruct a; done. Qed.

Lemma no_stop_inv o tr : ∀ s s', lsteps o s tr s' → no_call is_stop_call tr →
  cnt is_s (l_q s) = 0%nat → sbusy (l_loop s) = false → cnt is_s (l_q s') = 0%nat ∧ sbusy (l_loop s') = false.
Proof.
  induction tr as [|a tr IH]; intros s s' St Hn H1 H2; inversion St as [|? ? m ? ? HA HB]; subst; [done|].
  inversion Hn; subst. eapply (IH m); try done;
  inversion HA; subst; simpl in *; rewrite ?cnt_app, ?cnt_cons, ?cnt_nil in *; simpl in *; rewrite ?cnt_nil; try done; try lia.
Qed.

Lemma process_total o h d c : sd_run o sd0 h = Ok d → ∃ d', process_cmd o d c = Ok d'.
Proof.
  intros H. destruct (sd_run_ok o h) as (d' & E & Hc & _). rewrite E in H. injection H as ->.
  destruct c as [c| | |]; simpl; eauto. destruct (process_cmd_ok o d c Hc) as (? & ? & _). simpl in *. eauto.
Qed.

Lemma one_drain_progress o tr i s :
  linv o tr s → one_drain i s → l_wd s = [] ∨ ∃ a s', internal a ∧ lstep o s a s'.
Proof.
  intros [(h & Hr & _) _ _ _ _ _] (H1 & H2 & [[Hw Hc]|?]); [right|by left].
  destruct s as [q l d wd ws]; simpl in *. destruct l; try done.
  - destruct q as [|c q]; [done|]. destruct c as [c| | |].
    + destruct (process_total o h d (SMetric c) Hr) as (d' & E). eexists ATake, _; split; [done|]. by constructor.
    + eexists ATake, _; split; [done|]. constructor.
    + eexists ATake, _; split; [done|]. constructor.
    + rewrite cnt_cons in H1. simpl in H1. lia.
  - destruct q as [|c q].
    + eexists ADrainEmpty, _; split; [done|]. constructor.
    + destruct (process_total o h d c Hr) as (d' & E). eexists ADrainTake, _; split; [done|]. by constructor.
  - eexists (ADrainDone i), _; split; [done|]. constructor. rewrite Hw. by left.
Qed.

Lemma single_drain_returns o tr1 i tr2 s1 s2 :
  lsteps o lst0 tr1 s1 → no_call is_stop_call tr1 → l_wd s1 = [] →
  lsteps o s1 (ADrainCall i :: tr2) s2 → no_call is_drain_call tr2 → no_call is_stop_call tr2 →
  ∃ bound, ∀ tr3 s3, Forall internal tr3 → lsteps o s2 tr3 s3 →
    (length tr3 ≤ bound)%nat ∧ (i ∉ l_wd s3 ∨ ∃ a s4, internal a ∧ lstep o s3 a s4).
Proof.
  intros H1 Hs1 Hw H2 Hd Hs.
  pose proof (linv_reach _ _ _ H1) as I1.
  assert (linv o (tr1 ++ ADrainCall i :: tr2) s2) as I2 by (by eapply linv_steps).
  destruct (no_stop_inv o tr1 _ _ H1 Hs1) as [HA HB]; [done..|].
  inversion H2 as [|? ? m ? ? HC HD]; subst.
  assert (one_drain i m) as Om.
  { pose proof (li_d _ _ _ I1) as Hld. rewrite Hw in Hld. simpl in Hld.
    inversion HC; subst. unfold one_drain. simpl. rewrite !cnt_app, !cnt_cons, !cnt_nil. simpl.
    split_and!; [lia|done|]. left. rewrite Hw. split; [done|lia]. }
  assert (one_drain i s2) as O2.
  { eapply one_drain_steps; [done..|]. apply Forall_and. done. }
  exists (measure s2). intros tr3 s3 Hi H3. split; [by eapply internal_bounded|].
  assert (one_drain i s3) as O3.
  { eapply one_drain_steps; [done..|]. eapply Forall_impl; [done|]. apply internal_quiet. }
  assert (linv o ((tr1 ++ ADrainCall i :: tr2) ++ tr3) s3) as I3 by (by eapply linv_steps).
  destruct (one_drain_progress o _ i s3 I3 O3) as [E|?]; [left|by right].
  rewrite E. apply not_elem_of_nil.
Qed.

(** only caller [i]'s Stop is outstanding, and no Drain *)
Definition one_stop (i : nat) (s : lst) : Prop :=
  cnt is_d (l_q s) = 0%nat ∧ dbusy (l_loop s) = false ∧
  (l_ws s = [i] ∧ (cnt is_s (l_q s) + stopping (l_loop s) = 1)%nat ∧ l_loop s ≠ LDone ∨ l_ws s = []).
Lemma one_stop_step o i s a s' :
  one_stop i s → lstep o s a s' → is_drain_call a = false → is_stop_call a = false → one_stop i s'.
Proof.
  intros (H1 & H2 & H3) St Hd Hs. inversion St; subst; simpl in *; try done;
    unfold one_stop; simpl; rewrite ?cnt_app, ?cnt_cons, ?cnt_nil in *; simpl in *; rewrite ?cnt_nil in *;
    try (split_and!; [lia|done|]; destruct H3 as [(? & ? & ?)|?]; [left; split_and!; [done|unfold cnt in *; lia|done]|right; done]).
  - split_and!; [lia|done|]. right. destruct H3 as [(-> & _ & _)| ->]; [|by apply elem_of_nil in H].
    apply elem_of_list_singleton in H as ->. unfold remove_one. simpl. destruct (Nat.eq_dec i i); done.
Qed.
Lemma one_stop_steps o i tr : ∀ s s',
  one_stop i s → lsteps o s tr s' → Forall quiet tr → one_stop i s'.
Proof.
  induction tr as [|a tr IH]; intros s s' H St Hq; inversion St as [|? ? m ? ? HA HB]; subst; [done|].
  inversion Hq as [|? ? [? ?] ?]; subst. eapply IH; [|done|done]. by eapply one_stop_step.
Qed.
Lemma one_stop_progress o tr i s :
  linv o tr s → one_stop i s → l_ws s = [] ∨ ∃ a s', internal a ∧ lstep o s a s'.
Proof.
  intros [(h & Hr & _) _ _ _ _ _] (H1 & H2 & [(Hw & Hc & Hl)|?]); [right|by left].
  destruct s as [q l d wd ws]; simpl in *. destruct l; try done.
  - destruct q as [|c q]; [done|]. destruct c as [c| | |].
    + destruct (process_total o h d (SMetric c) Hr) as (d' & E). eexists ATake, _; split; [done|]. by constructor.
    + eexists ATake, _; split; [done|]. constructor.
    + eexists ATake, _; split; [done|]. constructor.
    + eexists ATake, _; split; [done|]. constructor.
  - eexists (AStopDone i), _; split; [done|]. constructor. rewrite Hw. by left.
Qed.
Lemma single_stop_returns o tr1 i tr2 s1 s2 :
  lsteps o lst0 tr1 s1 → no_call is_stop_call tr1 → l_wd s1 = [] →
  lsteps o s1 (AStopCall i :: tr2) s2 → no_call is_drain_call tr2 → no_call is_stop_call tr2 →
  ∃ bound, ∀ tr3 s3, Forall internal tr3 → lsteps o s2 tr3 s3 →
    (length tr3 ≤ bound)%nat ∧ (i ∉ l_ws s3 ∨ ∃ a s4, internal a ∧ lstep o s3 a s4).
Proof.
  intros H1 Hs1 Hw H2 Hd Hs.
  pose proof (linv_reach _ _ _ H1) as I1.
  assert (linv o (tr1 ++ AStopCall i :: tr2) s2) as I2 by (by eapply linv_steps).
  destruct (no_stop_inv o tr1 _ _ H1 Hs1) as [HA HB]; [done..|].
  assert (l_ws s1 = []) as Hws.
  { clear -H1 Hs1. assert (∀ s, l_ws s = [] → lsteps o s tr1 s1 → l_ws s1 = []) as G; [|by eapply (G lst0)].
    clear H1. induction tr1 as [|a tr IH]; intros s Hs H; inversion H as [|? ? m ? ? HA HB]; subst; [done|].
    inversion Hs1; subst. eapply IH; [done| |done].
    inversion HA; subst; simpl in *; try done. subst. match goal with H : _ ∈ [] |- _ => by apply elem_of_nil in H end. }
  inversion H2 as [|? ? m ? ? HC HD]; subst.
  assert (one_stop i m) as Om.
  { pose proof (li_d _ _ _ I1) as Hld. rewrite Hw in Hld. simpl in Hld.
    inversion HC; subst. unfold one_stop. simpl. rewrite !cnt_app, !cnt_cons, !cnt_nil. simpl. rewrite Hws.
    split_and!; [lia| |].
    - destruct (l_loop s1); simpl in *; try done; lia.
    - left. destruct (l_loop s1); simpl in *; split_and!; try done; lia. }
  assert (one_stop i s2) as O2.
  { eapply one_stop_steps; [done..|]. apply Forall_and. done. }
  exists (measure s2). intros tr3 s3 Hi H3. split; [by eapply internal_bounded|].
  assert (one_stop i s3) as O3.
  { eapply one_stop_steps; [done..|]. eapply Forall_impl; [done|]. apply internal_quiet. }
  assert (linv o ((tr1 ++ AStopCall i :: tr2) ++ tr3) s3) as I3 by (by eapply linv_steps).
  destruct (one_stop_progress o _ i s3 I3 O3) as [E|?]; [left|by right].
  rewrite E. apply not_elem_of_nil.
Qed.
