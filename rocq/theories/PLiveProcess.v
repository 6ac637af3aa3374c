(** * Executions of a process without end *)
From Verif Require Import SLive3 SServer PFair PProcess PProcess2 PProcess3 PLivePoll PLiveStatsd PLiveLibrato PLiveBugsnag PLibrato2 PStack PPolling PServer PServer2.

(** what the execution looks like to one sink *)
Definition poll_view (k : nat) (x : exec proc qact) : exec pst pact :=
  Exec (λ n, match q_sinks (x_at x n) !! k with Some (KPoll p) => p | _ => pst0 1 1 end)
       (λ n, match x_act x n with
             | Some (QEmit _ k' c _) => if decide (k' = k) then Some (PEmit c) else None
             | Some (QPoll k' a) => if decide (k' = k) then Some a else None
             | _ => None
             end).
Definition statsd_view (k : nat) (x : exec proc qact) : exec lst sact :=
  Exec (λ n, match q_sinks (x_at x n) !! k with Some (KStatsd _ l) => l | _ => lst0 end)
       (λ n, match x_act x n with
             | Some (QEmit _ k' c _) => if decide (k' = k) then Some (AEmit c) else None
             | Some (QStatsd k' a) => if decide (k' = k) then Some a else None
             | _ => None
             end).
Definition librato_view (k : nat) (x : exec proc qact) : exec lgo lact :=
  Exec (λ n, match q_sinks (x_at x n) !! k with Some (KLibrato _ l) => l | _ => lgo0 end)
       (λ n, match x_act x n with
             | Some (QEmit _ k' c _) => if decide (k' = k) then Some (GEmit (lib_cmd c).1 (lib_cmd c).2) else None
             | Some (QLibrato k' a) => if decide (k' = k) then Some a else None
             | _ => None
             end).
Definition bugsnag_view (k : nat) (x : exec proc qact) : exec bq bact :=
  Exec (λ n, match q_sinks (x_at x n) !! k with Some (KBugsnag l) => l | _ => bq0 end)
       (λ n, match x_act x n with
             | Some (QEmit _ k' c e) => if decide (k' = k) then BEnqueue <$> bug_cmd c e else None
             | Some (QBugsnag k' a) => if decide (k' = k) then Some a else None
             | _ => None
             end).
Lemma poll_view_acts k x n : acts (poll_view k x) n = poll_part k (acts x n).
Proof.
  induction n as [|n IH]; [done|]. rewrite !acts_S, IH, poll_part_app. f_equal. cbn [x_act poll_view].
  destruct (x_act x n) as [[]|]; unfold poll_part; cbn; try done; by case_decide.
Qed.
Lemma statsd_view_acts k x n : acts (statsd_view k x) n = statsd_part k (acts x n).
Proof.
  induction n as [|n IH]; [done|]. rewrite !acts_S, IH, statsd_part_app. f_equal. cbn [x_act statsd_view].
  destruct (x_act x n) as [[]|]; unfold statsd_part; cbn; try done; by case_decide.
Qed.
Lemma librato_view_acts k x n : acts (librato_view k x) n = librato_part k (acts x n).
Proof.
  induction n as [|n IH]; [done|]. rewrite !acts_S, IH, librato_part_app. f_equal. cbn [x_act librato_view].
  destruct (x_act x n) as [[]|]; unfold librato_part; cbn; try done; by case_decide.
Qed.
Lemma bugsnag_view_acts k x n : acts (bugsnag_view k x) n = bugsnag_part k (acts x n).
Proof.
  induction n as [|n IH]; [done|]. rewrite !acts_S, IH, bugsnag_part_app. f_equal. cbn [x_act bugsnag_view].
  destruct (x_act x n) as [[]|]; unfold bugsnag_part; cbn; try done; by case_decide.
Qed.

Section Process.
  Context (progs : list (list scall)) (ks : list ksink) (x : exec proc qact) (Hx : process_exec progs ks x) (Hf : process_fair x).

  Lemma preach n : qsteps (proc0 progs ks) (acts x n) (x_at x n).
  Proof using Hx.
    induction n as [|n IH]; [rewrite (qe_start _ _ _ Hx); constructor|]. rewrite acts_S.
    destruct (next _ x n (qe_exec _ _ _ Hx)) as [[-> ->]|(a&->&Hs)]; [by rewrite app_nil_r|]. apply qsteps_snoc. eauto.
  Qed.
  Local Lemma alive n : q_alive (x_at x n).
  Proof using Hx. eapply stay_alive; [apply (qe_new _ _ _ Hx)|apply (qe_usable _ _ _ Hx)|apply preach]. Qed.

  (** ** a polling sink *)
  Section Poll.
    Context (k : nat) (d r : Z) (Hk : ks !! k = Some (KPoll (pst0 d r))).
    Local Lemma poll_there n : q_sinks (x_at x n) !! k = Some (KPoll (x_at (poll_view k x) n)).
    Proof using Hx Hk.
      destruct (proj1 (thm_sink_parts _ _ _ _ (preach n) k) d r Hk) as (p&E&_). cbn [x_at poll_view]. by rewrite E.
    Qed.
    Lemma poll_view_exec : poll_exec d r (poll_view k x).
    Proof using Hx Hk.
      split.
      - intros n. pose proof (poll_there n) as E1. pose proof (poll_there (S n)) as E2. revert E1 E2.
        generalize (x_at (poll_view k x) n) (x_at (poll_view k x) (S n)). intros p p' E1 E2. cbn [x_act poll_view].
        destruct (next _ x n (qe_exec _ _ _ Hx)) as [[-> E]|(a&->&Hs)]; [rewrite E in E2; congruence|].
        revert E1 E2 Hs. generalize (x_at x n) (x_at x (S n)). intros s s' E1 E2 Hs.
        destruct Hs as [cs sk g at_ c rest y y' Ha Hg Hk' Ht|cs sk g c rest Ha Hg|cs sk k' b q q' Ha Hk' Hn Hp|cs sk k' b o l l' Ha Hk' Hn Hp|cs sk k' b lc l l' Ha Hk' Hn Hp|cs sk k' b l l' Ha Hk' Hn Hp]; cbn [q_sinks] in *.
        + case_decide as Hd.
          * subst at_. rewrite list_lookup_insert in E2 by (by eapply lookup_lt_Some). injection E2 as ->. rewrite E1 in Hk'. injection Hk' as <-. by inversion Ht.
          * rewrite list_lookup_insert_ne in E2 by done. congruence.
        + congruence.
        + case_decide as Hd.
          * subst k'. rewrite list_lookup_insert in E2 by (by eapply lookup_lt_Some). injection E2 as ->. rewrite E1 in Hk'. by injection Hk' as <-.
          * rewrite list_lookup_insert_ne in E2 by done. congruence.
        + destruct (decide (k' = k)) as [->|Hd].
          * congruence.
          * rewrite list_lookup_insert_ne in E2 by done. congruence.
        + destruct (decide (k' = k)) as [->|Hd].
          * congruence.
          * rewrite list_lookup_insert_ne in E2 by done. congruence.
        + destruct (decide (k' = k)) as [->|Hd].
          * congruence.
          * rewrite list_lookup_insert_ne in E2 by done. congruence.
      - pose proof (poll_there 0) as E. rewrite (qe_start _ _ _ Hx) in E. cbn in E. rewrite Hk in E. by injection E.
    Qed.
    Local Lemma poll_happens (P : pact → Prop) n : (∀ a, P a → not_emit_p a) → happens (at_poll k P) x n ↔ happens P (poll_view k x) n.
    Proof using Hx Hk.
      intros HP. unfold happens. cbn [x_act poll_view]. split.
      - intros (a&->&Ha). destruct a as [| |k' b| | |]; try done. destruct Ha as [-> Ha]. rewrite decide_True by done. eauto.
      - intros (a&Ea&Ha). destruct (x_act x n) as [[g k' c e|g|k' b|k' b|k' b|k' b]|]; try done; case_decide; try done; subst; injection Ea as <-.
        + by apply HP in Ha.
        + eexists. split; [done|]. done.
    Qed.
    Local Lemma poll_possible (P : pact → Prop) n : (∀ a, P a → not_emit_p a) → possible pstep P (x_at (poll_view k x) n) → possible qstep (at_poll k P) (x_at x n).
    Proof using Hx Hk.
      intros HP (a&p'&Ha&St). pose proof (poll_there n) as E. pose proof (alive n) as Hal. destruct (x_at x n) as [cs sk] eqn:Es. cbn [q_sinks] in E.
      exists (QPoll k a). eexists. split; [done|]. eapply Qs_poll; [done|exact E|by apply HP|exact St].
    Qed.
    Local Lemma poll_strong (P : pact → Prop) : (∀ a, P a → not_emit_p a) → strongly_fair qstep (at_poll k P) x → strongly_fair pstep P (poll_view k x).
    Proof using Hx Hk.
      intros HP H n Hn. destruct (H n) as (m&Hm&Hh); [|exists m; split; [done|by apply poll_happens]].
      intros j Hj. destruct (Hn j Hj) as (m&Hm&[Hp|(i&Hi&Hh)]); exists m; (split; [done|]); [left; by apply poll_possible|].
      right. exists i. split; [done|by apply poll_happens].
    Qed.
    Local Lemma poll_weak (P : pact → Prop) : (∀ a, P a → not_emit_p a) → weakly_fair qstep (at_poll k P) x → weakly_fair pstep P (poll_view k x).
    Proof using Hx Hk.
      intros HP H n. destruct (H n) as (m&Hm&[Hh|Hn]); exists m; (split; [done|]); [left; by apply poll_happens|]. right. intros Hp. by apply Hn, poll_possible.
    Qed.
    Lemma poll_view_fair : poll_fair (poll_view k x).
    Proof using Hx Hf Hk.
      constructor.
      - apply poll_strong; [by intros []|apply Hf].
      - intros i. apply poll_strong; [by intros []|apply Hf].
      - apply poll_strong; [by intros []|apply Hf].
      - apply poll_weak; [by intros []|apply Hf].
      - apply poll_weak; [by intros []|apply Hf].
    Qed.
    Lemma poll_view_never : never stops_sink x → never is_shut_call (poll_view k x).
    Proof using Hx Hk.
      intros H n Hh. apply poll_happens in Hh; [|by intros []]. destruct Hh as (a&Ea&Ha). apply (H n). exists a. split; [done|]. destruct a as [| |? []| | |]; try done; by destruct Ha.
    Qed.
  End Poll.

  (** ** a StatsD sink *)
  Section Statsd.
    Context (k : nat) (o : opts) (Hk : ks !! k = Some (KStatsd o lst0)).
    Lemma statsd_there n : q_sinks (x_at x n) !! k = Some (KStatsd o (x_at (statsd_view k x) n)).
    Proof using Hx Hk.
      destruct (proj1 (proj2 (thm_sink_parts _ _ _ _ (preach n) k)) o Hk) as (p&E&_). cbn [x_at statsd_view]. by rewrite E.
    Qed.
    Lemma statsd_view_exec : statsd_exec o (statsd_view k x).
    Proof using Hx Hk.
      split.
      - intros n. pose proof (statsd_there n) as E1. pose proof (statsd_there (S n)) as E2. revert E1 E2.
        generalize (x_at (statsd_view k x) n) (x_at (statsd_view k x) (S n)). intros p p' E1 E2. cbn [x_act statsd_view].
        destruct (next _ x n (qe_exec _ _ _ Hx)) as [[-> E]|(a&->&Hs)]; [rewrite E in E2; congruence|].
        revert E1 E2 Hs. generalize (x_at x n) (x_at x (S n)). intros s s' E1 E2 Hs.
        destruct Hs as [cs sk g at_ c rest y y' Ha Hg Hk' Ht|cs sk g c rest Ha Hg|cs sk k' b q q' Ha Hk' Hn Hp|cs sk k' b o' l l' Ha Hk' Hn Hp|cs sk k' b lc l l' Ha Hk' Hn Hp|cs sk k' b l l' Ha Hk' Hn Hp]; cbn [q_sinks] in *.
        + case_decide as Hd.
          * subst at_. rewrite list_lookup_insert in E2 by (by eapply lookup_lt_Some). injection E2 as ->. rewrite E1 in Hk'. injection Hk' as <-. by inversion Ht.
          * rewrite list_lookup_insert_ne in E2 by done. congruence.
        + congruence.
        + destruct (decide (k' = k)) as [->|Hd].
          * congruence.
          * rewrite list_lookup_insert_ne in E2 by done. congruence.
        + case_decide as Hd.
          * subst k'. rewrite list_lookup_insert in E2 by (by eapply lookup_lt_Some). injection E2 as -> ->. rewrite E1 in Hk'. by injection Hk' as <-.
          * rewrite list_lookup_insert_ne in E2 by done. congruence.
        + destruct (decide (k' = k)) as [->|Hd].
          * congruence.
          * rewrite list_lookup_insert_ne in E2 by done. congruence.
        + destruct (decide (k' = k)) as [->|Hd].
          * congruence.
          * rewrite list_lookup_insert_ne in E2 by done. congruence.
      - pose proof (statsd_there 0) as E. rewrite (qe_start _ _ _ Hx) in E. cbn in E. rewrite Hk in E. by injection E.
    Qed.
    Local Lemma statsd_happens (P : sact → Prop) n : (∀ a, P a → not_emit_s a) → happens (at_statsd k P) x n ↔ happens P (statsd_view k x) n.
    Proof using Hx Hk.
      intros HP. unfold happens. cbn [x_act statsd_view]. split.
      - intros (a&->&Ha). destruct a as [| | |k' b| |]; try done. destruct Ha as [-> Ha]. rewrite decide_True by done. eauto.
      - intros (a&Ea&Ha). destruct (x_act x n) as [[g k' c e|g|k' b|k' b|k' b|k' b]|]; try done; case_decide; try done; subst; injection Ea as <-.
        + by apply HP in Ha.
        + eexists. split; [done|]. done.
    Qed.
    Local Lemma statsd_possible (P : sact → Prop) n : (∀ a, P a → not_emit_s a) → possible (lstep o) P (x_at (statsd_view k x) n) → possible qstep (at_statsd k P) (x_at x n).
    Proof using Hx Hk.
      intros HP (a&p'&Ha&St). pose proof (statsd_there n) as E. pose proof (alive n) as Hal. destruct (x_at x n) as [cs sk] eqn:Es. cbn [q_sinks] in E.
      exists (QStatsd k a). eexists. split; [done|]. eapply Qs_statsd; [done|exact E|by apply HP|exact St].
    Qed.
    Lemma statsd_view_fair : statsd_fair o (statsd_view k x).
    Proof using Hx Hf Hk.
      constructor.
      - assert (HP : ∀ a, internal a → not_emit_s a) by (by intros []). intros n. destruct (qf_loop _ Hf k n) as (m&Hm&[Hh|Hn]); exists m; (split; [done|]); [left; by apply statsd_happens|].
        right. intros Hp. by apply Hn, statsd_possible.
      - assert (HP : ∀ a, is_tick a → not_emit_s a) by (by intros ? ->). intros n Hn. destruct (qf_tick _ Hf k n) as (m&Hm&Hh); [|exists m; split; [done|by apply statsd_happens]].
        intros j Hj. destruct (Hn j Hj) as (m&Hm&[Hp|(i&Hi&Hh)]); exists m; (split; [done|]); [left|].
        { destruct Hp as (a&s'&Ha&Hl&St). destruct (statsd_possible is_tick m HP) as (b&s2&Hb&Hs2); [by exists a, s'|]. exists b, s2. split; [done|]. split; [|done].
          pose proof (statsd_there m) as E. by rewrite E. }
        right. exists i. split; [done|by apply statsd_happens].
    Qed.
    Lemma statsd_view_never : never stops_sink x → never stop_by (statsd_view k x).
    Proof using Hx Hk.
      intros H n Hh. apply statsd_happens in Hh; [|by intros []]. destruct Hh as (a&Ea&Ha). apply (H n). exists a. split; [done|]. destruct a as [| | |? []| |]; try done; by destruct Ha.
    Qed.
    Lemma statsd_view_undrained : never (drains_sink k) x → never drain_by (statsd_view k x).
    Proof using Hx Hk.
      intros H n Hh. apply statsd_happens in Hh; [|by intros []]. destruct Hh as (a&Ea&Ha). apply (H n). exists a. split; [done|]. destruct a as [| | |? []| |]; try done; by destruct Ha.
    Qed.
  End Statsd.

  (** ** a Librato sink *)
  Section Librato.
    Context (k : nat) (o : lconf) (Hk : ks !! k = Some (KLibrato o lgo0)).
    Lemma librato_there n : q_sinks (x_at x n) !! k = Some (KLibrato o (x_at (librato_view k x) n)).
    Proof using Hx Hk.
      destruct (proj1 (proj2 (proj2 (thm_sink_parts _ _ _ _ (preach n) k))) o Hk) as (p&E&_). cbn [x_at librato_view]. by rewrite E.
    Qed.
    Lemma librato_view_exec : librato_exec o (librato_view k x).
    Proof using Hx Hk.
      split.
      - intros n. pose proof (librato_there n) as E1. pose proof (librato_there (S n)) as E2. revert E1 E2.
        generalize (x_at (librato_view k x) n) (x_at (librato_view k x) (S n)). intros p p' E1 E2. cbn [x_act librato_view].
        destruct (next _ x n (qe_exec _ _ _ Hx)) as [[-> E]|(a&->&Hs)]; [rewrite E in E2; congruence|].
        revert E1 E2 Hs. generalize (x_at x n) (x_at x (S n)). intros s s' E1 E2 Hs.
        destruct Hs as [cs sk g at_ c rest y y' Ha Hg Hk' Ht|cs sk g c rest Ha Hg|cs sk k' b q q' Ha Hk' Hn Hp|cs sk k' b lc l l' Ha Hk' Hn Hp|cs sk k' b o' l l' Ha Hk' Hn Hp|cs sk k' b l l' Ha Hk' Hn Hp]; cbn [q_sinks] in *.
        + case_decide as Hd.
          * subst at_. rewrite list_lookup_insert in E2 by (by eapply lookup_lt_Some). injection E2 as ->. rewrite E1 in Hk'. injection Hk' as <-. by inversion Ht.
          * rewrite list_lookup_insert_ne in E2 by done. congruence.
        + congruence.
        + destruct (decide (k' = k)) as [->|Hd].
          * congruence.
          * rewrite list_lookup_insert_ne in E2 by done. congruence.
        + destruct (decide (k' = k)) as [->|Hd].
          * congruence.
          * rewrite list_lookup_insert_ne in E2 by done. congruence.
        + case_decide as Hd.
          * subst k'. rewrite list_lookup_insert in E2 by (by eapply lookup_lt_Some). injection E2 as -> ->. rewrite E1 in Hk'. by injection Hk' as <-.
          * rewrite list_lookup_insert_ne in E2 by done. congruence.
        + destruct (decide (k' = k)) as [->|Hd].
          * congruence.
          * rewrite list_lookup_insert_ne in E2 by done. congruence.
      - pose proof (librato_there 0) as E. rewrite (qe_start _ _ _ Hx) in E. cbn in E. rewrite Hk in E. by injection E.
    Qed.
    Local Lemma librato_happens (P : lact → Prop) n : (∀ a, P a → not_emit_l a) → happens (at_librato k P) x n ↔ happens P (librato_view k x) n.
    Proof using Hx Hk.
      intros HP. unfold happens. cbn [x_act librato_view]. split.
      - intros (a&->&Ha). destruct a as [| | | |k' b|]; try done. destruct Ha as [-> Ha]. rewrite decide_True by done. eauto.
      - intros (a&Ea&Ha). destruct (x_act x n) as [[g k' c e|g|k' b|k' b|k' b|k' b]|]; try done; case_decide; try done; subst; injection Ea as <-.
        + by apply HP in Ha.
        + eexists. split; [done|]. done.
    Qed.
    Local Lemma librato_possible (P : lact → Prop) n : (∀ a, P a → not_emit_l a) → possible (gostep o) P (x_at (librato_view k x) n) → possible qstep (at_librato k P) (x_at x n).
    Proof using Hx Hk.
      intros HP (a&p'&Ha&St). pose proof (librato_there n) as E. pose proof (alive n) as Hal. destruct (x_at x n) as [cs sk] eqn:Es. cbn [q_sinks] in E.
      exists (QLibrato k a). eexists. split; [done|]. eapply Qs_librato; [done|exact E|by apply HP|exact St].
    Qed.
    Local Lemma librato_weak (P : lact → Prop) : (∀ a, P a → not_emit_l a) → weakly_fair qstep (at_librato k P) x → weakly_fair (gostep o) P (librato_view k x).
    Proof using Hx Hk.
      intros HP H n. destruct (H n) as (m&Hm&[Hh|Hn]); exists m; (split; [done|]); [left; by apply librato_happens|]. right. intros Hp. by apply Hn, librato_possible.
    Qed.
    Lemma librato_view_fair : librato_fair o (librato_view k x).
    Proof using Hx Hf Hk. constructor; apply librato_weak; [by intros ? -> || by intros []|apply Hf|by intros []|apply Hf|by intros []|apply Hf]. Qed.
    Lemma librato_view_never : never stops_sink x → never is_gstop (librato_view k x).
    Proof using Hx Hk.
      intros H n Hh. apply librato_happens in Hh; [|by intros []]. destruct Hh as (a&Ea&Ha). apply (H n). exists a. split; [done|]. destruct a as [| | | |? []|]; try done; by destruct Ha.
    Qed.
  End Librato.

  (** ** a Bugsnag sink *)
  Section Bugsnag.
    Context (k : nat) (Hk : ks !! k = Some (KBugsnag bq0)).
    Lemma bugsnag_there n : q_sinks (x_at x n) !! k = Some (KBugsnag (x_at (bugsnag_view k x) n)).
    Proof using Hx Hk.
      destruct (proj1 (proj2 (proj2 (proj2 (thm_sink_parts _ _ _ _ (preach n) k)))) Hk) as (p&E&_). cbn [x_at bugsnag_view]. by rewrite E.
    Qed.
    Lemma bugsnag_view_exec : bugsnag_exec (bugsnag_view k x).
    Proof using Hx Hk.
      split.
      - intros n. pose proof (bugsnag_there n) as E1. pose proof (bugsnag_there (S n)) as E2. revert E1 E2.
        generalize (x_at (bugsnag_view k x) n) (x_at (bugsnag_view k x) (S n)). intros p p' E1 E2. cbn [x_act bugsnag_view].
        destruct (next _ x n (qe_exec _ _ _ Hx)) as [[-> E]|(a&->&Hs)]; [rewrite E in E2; congruence|].
        revert E1 E2 Hs. generalize (x_at x n) (x_at x (S n)). intros s s' E1 E2 Hs.
        destruct Hs as [cs sk g at_ c rest y y' Ha Hg Hk' Ht|cs sk g c rest Ha Hg|cs sk k' b q q' Ha Hk' Hn Hp|cs sk k' b lc l l' Ha Hk' Hn Hp|cs sk k' b o' l l' Ha Hk' Hn Hp|cs sk k' b l l' Ha Hk' Hn Hp]; cbn [q_sinks] in *.
        + case_decide as Hd.
          * subst at_. rewrite list_lookup_insert in E2 by (by eapply lookup_lt_Some). injection E2 as ->. rewrite E1 in Hk'. injection Hk' as <-. inversion Ht as [| | |? ? ? ? ? Hb Hst|? ? ? Hb|]; subst; by rewrite Hb.
          * rewrite list_lookup_insert_ne in E2 by done. congruence.
        + congruence.
        + destruct (decide (k' = k)) as [->|Hd].
          * congruence.
          * rewrite list_lookup_insert_ne in E2 by done. congruence.
        + destruct (decide (k' = k)) as [->|Hd].
          * congruence.
          * rewrite list_lookup_insert_ne in E2 by done. congruence.
        + destruct (decide (k' = k)) as [->|Hd].
          * congruence.
          * rewrite list_lookup_insert_ne in E2 by done. congruence.
        + case_decide as Hd.
          * subst k'. rewrite list_lookup_insert in E2 by (by eapply lookup_lt_Some). injection E2 as ->. rewrite E1 in Hk'. by injection Hk' as <-.
          * rewrite list_lookup_insert_ne in E2 by done. congruence.
      - pose proof (bugsnag_there 0) as E. rewrite (qe_start _ _ _ Hx) in E. cbn in E. rewrite Hk in E. by injection E.
    Qed.
    Local Lemma bugsnag_happens (P : bact → Prop) n : (∀ a, P a → not_emit_b a) → happens (at_bugsnag k P) x n ↔ happens P (bugsnag_view k x) n.
    Proof using Hx Hk.
      intros HP. unfold happens. cbn [x_act bugsnag_view]. split.
      - intros (a&->&Ha). destruct a as [| | | | |k' b]; try done. destruct Ha as [-> Ha]. rewrite decide_True by done. eauto.
      - intros (a&Ea&Ha). destruct (x_act x n) as [[g k' c e|g|k' b|k' b|k' b|k' b]|]; try done; case_decide; try done; subst.
        + destruct (bug_cmd c e); [|done]. cbn in Ea. injection Ea as <-. by apply HP in Ha.
        + injection Ea as <-. eexists. split; [done|]. done.
    Qed.
    Local Lemma bugsnag_possible (P : bact → Prop) n : (∀ a, P a → not_emit_b a) → possible bstep P (x_at (bugsnag_view k x) n) → possible qstep (at_bugsnag k P) (x_at x n).
    Proof using Hx Hk.
      intros HP (a&p'&Ha&St). pose proof (bugsnag_there n) as E. pose proof (alive n) as Hal. destruct (x_at x n) as [cs sk] eqn:Es. cbn [q_sinks] in E.
      exists (QBugsnag k a). eexists. split; [done|]. eapply Qs_bugsnag; [done|exact E|by apply HP|exact St].
    Qed.
    Local Lemma bugsnag_weak (P : bact → Prop) : (∀ a, P a → not_emit_b a) → weakly_fair qstep (at_bugsnag k P) x → weakly_fair bstep P (bugsnag_view k x).
    Proof using Hx Hk.
      intros HP H n. destruct (H n) as (m&Hm&[Hh|Hn]); exists m; (split; [done|]); [left; by apply bugsnag_happens|]. right. intros Hp. by apply Hn, bugsnag_possible.
    Qed.
    Lemma bugsnag_view_fair : bugsnag_fair (bugsnag_view k x).
    Proof using Hx Hf Hk. apply bugsnag_weak; [by intros ? ->|apply Hf]. Qed.
    Lemma bugsnag_view_never : never stops_sink x → never (λ b, b = BShutdown) (bugsnag_view k x).
    Proof using Hx Hk.
      intros H n Hh. apply bugsnag_happens in Hh; [|by intros []]. destruct Hh as (a&Ea&Ha). apply (H n). exists a. split; [done|]. destruct a as [| | | | |? []]; try done; by destruct Ha.
    Qed.
  End Bugsnag.

  (** ** callers *)
  Section Callers.
    Context (Hn : never stops_sink x).
    Local Lemma room_at k y : ks !! k = Some y → ∀ n c e, ∃ m y1 y2, (n ≤ m)%nat ∧ q_sinks (x_at x m) !! k = Some y1 ∧ takes_cmd y1 c e y2.
    Proof using All.
      intros Hk n c e. pose proof (qe_new _ _ _ Hx) as Hnew. pose proof (qe_usable _ _ _ Hx) as Hus. rewrite Forall_lookup in Hnew, Hus.
      specialize (Hnew _ _ Hk). specialize (Hus _ _ Hk). destruct Hnew as [d0 r0|o|lc| |].
      - destruct Hus as (d&r&Hd&Hr&E). rewrite E in Hk. destruct (poll_room d r Hd Hr _ (poll_view_exec k d r Hk) (poll_view_fair k d r Hk) (poll_view_never k d r Hk Hn) n) as (m&Hm&Hroom).
        exists m. do 2 eexists. split; [done|]. split; [apply (poll_there k d r Hk)|]. constructor. constructor; [|done].
        pose proof (alive m) as Ha. unfold q_alive in Ha. rewrite Forall_lookup in Ha. apply (Ha k _ (poll_there k d r Hk m)).
      - destruct (statsd_room o _ (statsd_view_exec k o Hk) (statsd_view_fair k o Hk) n (statsd_view_never k o Hk Hn)) as (m&Hm&Hroom).
        exists m. do 2 eexists. split; [done|]. split; [apply (statsd_there k o Hk)|]. constructor. by constructor.
      - destruct (librato_room lc _ (librato_view_exec k lc Hk) (librato_view_fair k lc Hk) (librato_view_never k lc Hk Hn) n) as (m&Hm&Hroom).
        exists m. pose proof (librato_there k lc Hk m) as E. revert E Hroom. generalize (x_at (librato_view k x) m). intros [q ph l w] E Hroom.
        do 2 eexists. split; [done|]. split; [exact E|]. constructor. by constructor.
      - destruct (bug_cmd c e) as [b|] eqn:Eb; [|exists n; do 2 eexists; split; [done|]; split; [apply (bugsnag_there k Hk)|]; by constructor].
        destruct (bugsnag_room _ (bugsnag_view_exec k Hk) (bugsnag_view_fair k Hk) (bugsnag_view_never k Hk Hn) n) as (m&Hm&Hroom).
        exists m. do 2 eexists. split; [done|]. split; [apply (bugsnag_there k Hk)|]. econstructor; [done|]. by constructor.
      - exists n. do 2 eexists. split; [done|]. split; [apply (proj2 (proj2 (proj2 (proj2 (thm_sink_parts _ _ _ _ (preach n) k)))) Hk)|]. constructor.
    Qed.
    Local Lemma caller_step g at_ c rest n : q_callers (x_at x n) !! g = Some (Caller at_ (c :: rest)) →
      ∃ m, (n < m)%nat ∧ q_callers (x_at x m) !! g = Some (advance (length ks) (Caller at_ (c :: rest))).
    Proof using All.
      intros Hg. assert (Hlen : ∀ m, length (q_sinks (x_at x m)) = length ks) by (intros m; apply (ci_sinks _ _ _ _ (cinv_run _ _ _ _ (preach m)))).
      assert (Hat : (at_ ≤ length ks)%nat).
      { destruct (cinv_run _ _ _ _ (preach n)) as [_ I2 I3]. destruct (progs !! g) as [prog|] eqn:Hp.
        - destruct (I3 g prog Hp) as (at' & dn & rest' & E1 & _ & _ & E4 & _). rewrite Hg in E1. by injection E1 as -> _.
        - apply lookup_ge_None in Hp. apply lookup_lt_Some in Hg. lia. }
      destruct (strong_leads qstep x (λ _, False) (by_caller g) (λ s, q_callers s !! g = Some (Caller at_ (c :: rest))) n (qe_exec _ _ _ Hx) (qf_caller _ Hf g) (none_false x n) Hg) as (m&Hm&(a&Ha&Hp)&HI).
      - intros j Hj _. destruct (decide (at_ < length ks)%nat) as [Hlt|Hge].
        + destruct (lookup_lt_is_Some_2 ks at_ Hlt) as [y Hy]. destruct (room_at at_ y Hy j (c at_) (sc_new c at_)) as (m&y1&y2&Hm&E1&E2). exists m. split; [done|]. intros HI.
          pose proof (alive m) as Hal. destruct (x_at x m) as [cs sk]. cbn in *. exists (QEmit g at_ (c at_) (sc_new c at_)). eexists. split; [done|]. by eapply (Qs_emit _ _ g at_ c).
        + assert (at_ = length ks) as -> by lia. exists j. split; [done|]. intros HI. pose proof (alive j) as Hal. specialize (Hlen j). destruct (x_at x j) as [cs sk]. cbn in *.
          exists (QNext g). eexists. split; [done|]. eapply Qs_next; [done|by rewrite Hlen].
      - intros s a s' HI St. destruct St as [cs sk g' at' c' rest' y y' Hal Hg' Hk' Ht|cs sk g' c' rest' Hal Hg'|cs sk k' b q q' Hal Hk' Hno Hp|cs sk k' b o l l' Hal Hk' Hno Hp|cs sk k' b lc l l' Hal Hk' Hno Hp|cs sk k' b l l' Hal Hk' Hno Hp]; cbn [by_caller q_callers] in *.
        + destruct (decide (g' = g)) as [->|]; [by left|]. right. right. by rewrite list_lookup_insert_ne.
        + destruct (decide (g' = g)) as [->|]; [by left|]. right. right. by rewrite list_lookup_insert_ne.
        + auto.
        + auto.
        + auto.
        + auto.
      - exists (S m). split; [lia|]. destruct (next _ x m (qe_exec _ _ _ Hx)) as [[E _]|(b&E&St)]; [congruence|]. assert (b = a) as -> by congruence.
        pose proof (Hlen m) as HL. revert HI HL St. generalize (x_at x m) (x_at x (S m)). intros s s' HI HL St.
        destruct St as [cs sk g' at' c' rest' y y' Hal Hg' Hk' Ht|cs sk g' c' rest' Hal Hg'|cs sk k' b q q' Hal Hk' Hno Hp'|cs sk k' b o l l' Hal Hk' Hno Hp'|cs sk k' b lc l l' Hal Hk' Hno Hp'|cs sk k' b l l' Hal Hk' Hno Hp']; cbn [by_caller q_callers q_sinks] in *; try done; subst g'.
        + rewrite HI in Hg'. injection Hg' as <- <- <-. rewrite list_lookup_insert by (by eapply lookup_lt_Some). unfold advance. cbn.
          rewrite decide_True; [done|]. apply lookup_lt_Some in Hk'. lia.
        + rewrite HI in Hg'. injection Hg' as -> <- <-. rewrite list_lookup_insert by (by eapply lookup_lt_Some). unfold advance. cbn.
          rewrite decide_False; [done|]. lia.
    Qed.
    Local Lemma caller_done g w : ∀ n at_ rest, q_callers (x_at x n) !! g = Some (Caller at_ rest) →
      (length rest * S (length ks) + (length ks - at_) ≤ w)%nat → ∃ m, (n ≤ m)%nat ∧ cl_rest <$> q_callers (x_at x m) !! g = Some [].
    Proof using All.
      induction w as [|w IH]; intros n at_ rest Hg Hw; (destruct rest as [|c rest]; [exists n; split; [done|by rewrite Hg]|]); [cbn in Hw; lia|].
      destruct (caller_step g at_ c rest n Hg) as (m&Hm&Hg'). unfold advance in Hg'. cbn [cl_rest cl_at] in Hg'. cbn [length] in Hw. case_decide as Hlt.
      - destruct (IH m _ _ Hg') as (m'&Hm'&E); [cbn [length]; lia|]. exists m'. split; [lia|done].
      - destruct (IH m _ _ Hg') as (m'&Hm'&E); [lia|]. exists m'. split; [lia|done].
    Qed.
    Local Lemma done_stays g n m : cl_rest <$> q_callers (x_at x n) !! g = Some [] → (n ≤ m)%nat → cl_rest <$> q_callers (x_at x m) !! g = Some [].
    Proof using All.
      intros H. induction 1 as [|m _ IH]; [done|]. destruct (next _ x m (qe_exec _ _ _ Hx)) as [[_ ->]|(a&_&St)]; [done|].
      revert IH St. generalize (x_at x m) (x_at x (S m)). intros s s' IH St.
      destruct St as [cs sk g' at' c' rest' y y' Hal Hg' Hk' Ht|cs sk g' c' rest' Hal Hg'|cs sk k' b q q' Hal Hk' Hno Hp'|cs sk k' b o l l' Hal Hk' Hno Hp'|cs sk k' b lc l l' Hal Hk' Hno Hp'|cs sk k' b l l' Hal Hk' Hno Hp']; cbn [q_callers] in *; try done.
      - destruct (decide (g' = g)) as [->|]; [by rewrite Hg' in IH|by rewrite list_lookup_insert_ne].
      - destruct (decide (g' = g)) as [->|]; [by rewrite Hg' in IH|by rewrite list_lookup_insert_ne].
    Qed.
    Lemma process_returns : ∃ m, all_returned progs (acts x m).
    Proof using All.
      assert (G : ∀ j, (j ≤ length progs)%nat → ∃ m, ∀ g, (g < j)%nat → cl_rest <$> q_callers (x_at x m) !! g = Some []).
      { induction j as [|j IH]; intros Hj; [exists 0%nat; intros; lia|]. destruct IH as (m&Hm); [lia|].
        destruct (cinv_run _ _ _ _ (preach m)) as [_ I2 _]. destruct (lookup_lt_is_Some_2 (q_callers (x_at x m)) j ltac:(lia)) as [[at_ rest] Hc].
        destruct (caller_done j _ m at_ rest Hc (le_n _)) as (m'&Hm'&E). exists m'. intros g Hg. destruct (decide (g = j)) as [->|]; [done|]. apply (done_stays g m); [|done]. apply Hm. lia. }
      destruct (G (length progs) (le_n _)) as (m&Hm). exists m. intros g prog Hg.
      destruct (ci_call _ _ _ _ (cinv_run _ _ _ _ (preach m)) g prog Hg) as (at_ & dn & rest & E1 & E2 & E3 & _).
      specialize (Hm g ltac:(by eapply lookup_lt_Some)). rewrite E1 in Hm. cbn in Hm. injection Hm as ->. by rewrite E3, E2, app_nil_r.
    Qed.
    Local Lemma returned_later n m : all_returned progs (acts x n) → (n ≤ m)%nat → all_returned progs (acts x m).
    Proof using All.
      intros H Hm. destruct (acts_le x n m Hm) as (tr&E). pose proof (preach m) as Hr. rewrite E in *. by eapply all_returned_app.
    Qed.
    (** ** everything arrives *)
    Lemma process_polled k d r : ks !! k = Some (KPoll (pst0 d r)) → 0 < d → d ≤ r →
      ∃ m, all_returned progs (acts x m) ∧ poll_processed (poll_part k (acts x m)) ≡ₚ concat (map (tells_sink k) progs).
    Proof using All.
      intros Hk Hd Hr. destruct process_returns as (n&H).
      destruct (poll_served d r Hd Hr _ (poll_view_exec k d r Hk) (poll_view_fair k d r Hk) (poll_view_never k d r Hk Hn) n) as (m&Hm&Hp).
      exists m. pose proof (returned_later n m H Hm) as Hm'. split; [done|].
      assert (Lk : (k < length ks)%nat) by (by eapply lookup_lt_Some).
      pose proof (thm_told_all _ _ _ _ (preach n) H k Lk) as P1. pose proof (thm_told_all _ _ _ _ (preach m) Hm' k Lk) as P2.
      rewrite !poll_view_acts in Hp. rewrite (poll_part_told k _ (qsteps_tame _ _ _ (preach n))) in Hp.
      destruct (proj1 (thm_sink_parts _ _ _ _ (preach m) k) d r Hk) as (p&_&Sp&Ap).
      destruct (poll_fifo _ _ _ _ Sp) as (Q&_). rewrite Ap in Q.
      destruct Hp as (l&El). rewrite El in Q |- *. assert (length (told (acts x m) k) = length (told (acts x n) k)) as EL by (by rewrite P1, P2).
      rewrite Q, !app_length in EL. destruct l; [|cbn in EL; lia]. by rewrite app_nil_r.
    Qed.
    Lemma process_counted k o name : ks !! k = Some (KStatsd o lst0) → never (drains_sink k) x → clean o → all_fit o (concat (map (tells_sink k) progs)) →
      ∃ m l, all_returned progs (acts x m) ∧ q_sinks (x_at x m) !! k = Some (KStatsd o l) ∧
        counter name (sd_sent (l_sd l)) = counts o name (concat (map (tells_sink k) progs)).
    Proof using All.
      intros Hk Hnd Hc Hfit. destruct process_returns as (n&H).
      destruct (statsd_delivered o _ (statsd_view_exec k o Hk) (statsd_view_fair k o Hk) n (statsd_view_never k o Hk Hn) (statsd_view_undrained k o Hk Hnd)) as (m&Hm&Hdel).
      pose proof (returned_later n m H Hm) as Hm'. exists m, (x_at (statsd_view k x) m). split; [done|]. split; [apply (statsd_there k o Hk)|].
      assert (Lk : (k < length ks)%nat) by (by eapply lookup_lt_Some).
      pose proof (thm_told_all _ _ _ _ (preach n) H k Lk) as P1. pose proof (thm_told_all _ _ _ _ (preach m) Hm' k Lk) as P2.
      rewrite !statsd_view_acts in Hdel. destruct Hdel as (j&H1&H2&_&Hpk).
      rewrite (statsd_part_told k _ (qsteps_tame _ _ _ (preach n))) in H1. rewrite (statsd_part_told k _ (qsteps_tame _ _ _ (preach m))) in H2, Hpk.
      assert (length (told (acts x m) k) = length (told (acts x n) k)) as EL by (by rewrite P1, P2).
      rewrite take_ge in Hpk by lia. rewrite (thm_counter o name (told (acts x m) k)); [by apply counts_perm|done| |done]. by eapply all_fit_perm.
    Qed.
    Lemma process_flushed k c : ks !! k = Some (KLibrato c lgo0) →
      ∃ m now ok ops, all_returned progs (acts x m) ∧ loop_ops [] (librato_part k (acts x m)) = ops ++ [LFlush now ok] ∧
        cmds_of ops ≡ₚ for_librato (concat (map (tells_sink k) progs)).
    Proof using All.
      intros Hk. destruct process_returns as (n&H).
      destruct (librato_flushed c _ (librato_view_exec k c Hk) (librato_view_fair k c Hk) (librato_view_never k c Hk Hn) n) as (m&now&ok&ops&Hm&Ho&Hp).
      exists m, now, ok, ops. pose proof (returned_later n m H Hm) as Hm'. split; [done|]. rewrite !librato_view_acts in *. split; [done|].
      assert (Lk : (k < length ks)%nat) by (by eapply lookup_lt_Some).
      pose proof (thm_told_all _ _ _ _ (preach n) H k Lk) as P1. pose proof (thm_told_all _ _ _ _ (preach m) Hm' k Lk) as P2.
      rewrite (librato_part_told k _ (qsteps_tame _ _ _ (preach n))) in Hp.
      destruct (proj1 (proj2 (proj2 (thm_sink_parts _ _ _ _ (preach m) k))) c Hk) as (p&_&Sp&Ap).
      destruct (thm_go _ _ _ Sp) as (_&Q). rewrite Ap, Ho in Q. unfold cmds_of in Q. rewrite map_app, concat_app in Q. cbn in Q. rewrite app_nil_r in Q. fold (cmds_of ops) in Q.
      destruct Hp as (l&El). rewrite El in Q |- *. assert (length (told (acts x m) k) = length (told (acts x n) k)) as EL by (by rewrite P1, P2).
      assert (EL' : length (for_librato (told (acts x m) k)) = length (for_librato (told (acts x n) k))) by (unfold for_librato; by rewrite !map_length).
      rewrite Q, !app_length in EL'. destruct l; [|cbn in EL'; lia]. rewrite app_nil_r. unfold for_librato. by rewrite P1.
    Qed.
    Lemma process_notified k : ks !! k = Some (KBugsnag bq0) →
      ∃ m b, all_returned progs (acts x m) ∧ q_sinks (x_at x m) !! k = Some (KBugsnag b) ∧
        q_sent b ≡ₚ concat (map (λ prog, for_bugsnag (hears k prog)) progs).
    Proof using All.
      intros Hk. destruct process_returns as (n&H).
      destruct (bugsnag_sent _ (bugsnag_view_exec k Hk) (bugsnag_view_fair k Hk) (bugsnag_view_never k Hk Hn) n) as (m&Hm&Hp).
      pose proof (returned_later n m H Hm) as Hm'.
      exists m, (x_at (bugsnag_view k x) m). split; [done|]. split; [apply (bugsnag_there k Hk)|]. rewrite !bugsnag_view_acts in *.
      assert (Lk : (k < length ks)%nat) by (by eapply lookup_lt_Some).
      pose proof (thm_heard_all _ _ _ _ (preach n) H k Lk) as P1. pose proof (thm_heard_all _ _ _ _ (preach m) Hm' k Lk) as P2.
      rewrite (bugsnag_part_heard k _ (qsteps_tame _ _ _ (preach n))) in Hp.
      destruct (proj1 (proj2 (proj2 (proj2 (thm_sink_parts _ _ _ _ (preach m) k)))) Hk) as (p&Ep&Sp&Ap).
      pose proof (bsteps_inv _ _ Sp) as Q. rewrite (bugsnag_there k Hk) in Ep. assert (p = x_at (bugsnag_view k x) m) as -> by congruence. rewrite Ap in Q.
      assert (EP : ∀ l : list (list scall), for_bugsnag (concat (map (hears k) l)) = concat (map (λ prog, for_bugsnag (hears k prog)) l)).
      { induction l as [|a l IH]; [done|]. cbn. unfold for_bugsnag at 1. rewrite omap_app. f_equal. exact IH. }
      rewrite <- EP. assert (PB : ∀ l l' : list (cmd * option fresh_err), l ≡ₚ l' → for_bugsnag l ≡ₚ for_bugsnag l') by (intros; unfold for_bugsnag; by apply omap_Permutation).
      apply PB in P1, P2. rewrite <- P1.
      destruct Hp as (l&El). rewrite El in Q |- *. assert (length (for_bugsnag (heard (acts x m) k)) = length (for_bugsnag (heard (acts x n) k))) as EL by (by rewrite P1, P2).
      rewrite <- Q, !app_length in EL. destruct l; [|cbn in EL; lia]. by rewrite app_nil_r.
    Qed.
  End Callers.
End Process.
