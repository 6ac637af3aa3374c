(** * The StatsD sink goes on (C110) *)
From Verif Require Import SLive PFair PStatsd PStatsdLoop.

(** everything put into the queue, and how much was taken out of it *)
Definition put (tr : list sact) : list scmd :=
  omap (λ a, match a with AEmit c => Some (SMetric c) | ATick => Some SFlush | ADrainCall _ => Some SDrain | AStopCall _ => Some SStop | _ => None end) tr.
Definition got_one (a : sact) : option unit := match a with ATake | ADrainTake => Some () | _ => None end.
Definition got (tr : list sact) : nat := length (omap got_one tr).
Definition is_got (a : sact) : Prop := got_one a = Some ().
Lemma put_app a b : put (a ++ b) = put a ++ put b.
Proof. apply omap_app. Qed.
Lemma got_app a b : got (a ++ b) = (got a + got b)%nat.
Proof. unfold got. by rewrite omap_app, app_length. Qed.
Lemma put_metrics tr : q_metrics (put tr) = accepted tr.
Proof. induction tr as [|a tr IH]; [done|]. destruct a; cbn; [f_equal| | | | | | | |]; exact IH. Qed.

#[local] Instance internal_dec a : Decision (internal a).
Proof. destruct a; cbn; apply _. Defined.

Record queued (tr : list sact) (s : lst) (dn : list scmd) : Prop := {
  qd_put : put tr = dn ++ l_q s;
  qd_got : length dn = got tr;
  qd_stop : sbusy (l_loop s) = true → SStop ∈ dn;
  qd_drain : dbusy (l_loop s) = true → SDrain ∈ dn }.
Lemma queued_step o tr s a s' dn : queued tr s dn → lstep o s a s' →
  (¬ is_got a ∧ queued (tr ++ [a]) s' dn) ∨ (is_got a ∧ ∃ c, l_q s = c :: l_q s' ∧ queued (tr ++ [a]) s' (dn ++ [c])).
Proof.
  intros [H1 H2 H3 H4] St.
  inversion St; subst; cbn in *; try (left; split; [done|]; constructor; rewrite ?put_app, ?got_app; cbn; rewrite ?H1, ?app_nil_r, <- ?app_assoc; cbn; auto; unfold got in *; cbn in *; try lia; set_solver);
    (right; split; [done|]; eexists; split; [reflexivity|]; constructor; rewrite ?put_app, ?got_app, ?app_length; cbn; rewrite ?H1, ?app_nil_r, <- ?app_assoc; cbn; auto;
      try (unfold got in *; cbn in *; lia); set_solver).
Qed.
Lemma queued_reach o tr s : lsteps o lst0 tr s → ∃ dn, queued tr s dn.
Proof.
  revert s. induction tr as [|a tr IH] using rev_ind; intros s H.
  - inversion H; subst. by exists [].
  - apply lsteps_app in H as (m&H1&H2). apply lsteps_one in H2. destruct (IH m H1) as (dn&Hdn).
    destruct (queued_step o tr m a s dn Hdn H2) as [[_ ?]|(_&c&_&?)]; eauto.
Qed.

Section Statsd.
  Context (o : opts) (x : exec lst sact) (Hx : statsd_exec o x) (Hf : statsd_fair o x).

  Local Lemma reach n : lsteps o lst0 (acts x n) (x_at x n).
  Proof using Hx.
    destruct Hx as [He H0]. induction n as [|n IH]; [rewrite H0; constructor|]. rewrite acts_S.
    destruct (next _ x n He) as [[-> ->]|(a&->&Hs)]; [by rewrite app_nil_r|].
    apply lsteps_app. eexists. split; [exact IH|]. by apply lsteps_one.
  Qed.
  Local Lemma step_at n a : x_act x n = Some a → lstep o (x_at x n) a (x_at x (S n)).
  Proof using Hx. intros H. destruct (next _ x n (proj1 Hx)) as [[E _]|(b&E&Hst)]; congruence. Qed.

  (** the loop is not stopping and has something to take *)
  Local Definition busy (s : lst) : Prop := (∃ tr, lsteps o lst0 tr s) ∧ sbusy (l_loop s) = false ∧ l_q s ≠ [].
  Local Lemma busy_at n : sbusy (l_loop (x_at x n)) = false → l_q (x_at x n) ≠ [] → busy (x_at x n).
  Proof using Hx. split; [eexists; apply reach|done]. Qed.
  Local Lemma busy_can s : busy s → possible (lstep o) internal s.
  Proof.
    intros ((tr&H)&Hb&Hq). pose proof (linv_reach _ _ _ H) as [(h&Hr&_) Hnd _ Hd _ _]. destruct s as [[|c q] l d wd ws]; [done|]. cbn in *. destruct l; try done.
    - exists ATake. destruct c as [c| | |]; [destruct (process_total o h d (SMetric c) Hr) as (d'&E)| | |]; eexists; (split; [done|]); by constructor.
    - exists ADrainTake. destruct (process_total o h d c Hr) as (d'&E). eexists; (split; [done|]); by constructor.
    - destruct wd as [|i wd]; [cbn in Hd; lia|]. exists (ADrainDone i). eexists. split; [done|]. constructor. left.
  Qed.
  Local Lemma busy_step s a s' : busy s → lstep o s a s' → internal a ∨ False ∨ busy s'.
  Proof.
    intros ((tr&H)&Hb&Hq) St. destruct (decide (internal a)) as [|Hi].
    { by left. }
    right. right. split; [exists (tr ++ [a]); apply lsteps_app; eexists; split; [exact H|by apply lsteps_one]|].
    inversion St; subst; cbn in *; try done; split; try done; by destruct (l_q s).
  Qed.
  Local Lemma gets n : sbusy (l_loop (x_at x n)) = false → l_q (x_at x n) ≠ [] →
    ∃ m, (n ≤ m)%nat ∧ happens is_got x m.
  Proof using All.
    intros H1 H2. destruct (weak_leads _ x (λ _, False) internal busy n (proj1 Hx) (sf_loop o x Hf) (none_false x n) (busy_at n H1 H2) busy_can busy_step) as (m&Hm&(a&Ha&Hi)&Hb).
    pose proof (step_at m a Ha) as St. destruct Hb as (_&Hb&Hq).
    destruct a as [c| |i|i| | | |i|i]; try done; try (by exists m; split; [done|]; eexists; split; [exact Ha|done]).
    - inversion St; subst. by match goal with H : _ = x_at x m |- _ => rewrite <- H in Hq end.
    - assert (HS : l_loop (x_at x (S m)) = LRun ∧ l_q (x_at x (S m)) ≠ []).
      { inversion St; subst. by match goal with H : _ = x_at x m |- _ => rewrite <- H in Hq end. }
      destruct HS as [HS1 HS2].
      destruct (weak_leads _ x (λ _, False) internal (λ s, busy s ∧ l_loop s = LRun) (S m) (proj1 Hx) (sf_loop o x Hf) (none_false x _)) as (k&Hk&(b&Hb'&Hi')&(Hbk&Hlk)).
      + split; [apply busy_at; [by rewrite HS1|done]|done].
      + intros s [? _]. by apply busy_can.
      + intros s b s' [Hs Hl] St'. destruct (busy_step s b s' Hs St') as [|[|]]; auto. destruct s as [q l sd0 wd ws]. cbn in Hl. subst l.
        inversion St'; subst; cbn in *; auto; left; done.
      + exists k. split; [lia|]. exists b. split; [done|]. pose proof (step_at k b Hb') as St'. destruct (x_at x k) as [q l sd0 wd ws]. cbn in Hlk. subst l.
        by inversion St'; subst.
    - inversion St; subst. by match goal with H : _ = x_at x m |- _ => rewrite <- H in Hb end.
  Qed.
  Local Lemma got_le n m : (n ≤ m)%nat → (got (acts x n) ≤ got (acts x m))%nat.
  Proof. intros H. destruct (acts_le x n m H) as (l&->). rewrite got_app. lia. Qed.
  Local Lemma put_le n m : (n ≤ m)%nat → put (acts x n) `prefix_of` put (acts x m).
  Proof. intros H. destruct (acts_le x n m H) as (l&->). rewrite put_app. by eexists. Qed.

  (** everything put is taken, unless the loop stops *)
  Local Lemma all_got n l : (l ≤ length (put (acts x n)))%nat →
    ∃ m, (n ≤ m)%nat ∧ ((l ≤ got (acts x m))%nat ∨ sbusy (l_loop (x_at x m)) = true).
  Proof using All.
    induction l as [|l IH]; intros Hl; [exists n; split; [done|left; lia]|]. destruct IH as (m&Hm&[H1|H1]); [lia| |by exists m; auto].
    destruct (sbusy (l_loop (x_at x m))) eqn:Hb; [exists m; auto|].
    destruct (decide (S l ≤ got (acts x m))%nat) as [|Hlt]; [exists m; auto|].
    destruct (queued_reach o _ _ (reach m)) as (dn&[Q1 Q2 _ _]). pose proof (prefix_length _ _ (put_le n m Hm)) as H2. rewrite Q1, app_length in H2.
    destruct (gets m Hb) as (k&Hk&(a&Ha&Hp)). { intros E. rewrite E in H2. cbn in H2. lia. }
    exists (S k). split; [lia|]. left. rewrite acts_S, Ha, got_app. pose proof (got_le m k Hk). unfold got at 2. cbn. rewrite Hp. cbn. lia.
  Qed.
  (** the step at which a given command is taken *)
  Local Lemma crossing n m l : (n ≤ m)%nat → (got (acts x n) ≤ l)%nat → (l < got (acts x m))%nat →
    ∃ k, (n ≤ k < m)%nat ∧ got (acts x k) = l ∧ happens is_got x k.
  Proof.
    intros Hm Hn. induction Hm as [|m Hm IH]; [lia|]. intros Hl.
    destruct (decide (l < got (acts x m))%nat) as [Hlt|Hge]; [destruct (IH Hlt) as (k&?&?); exists k; split; [lia|done]|].
    rewrite acts_S, got_app in Hl. exists m. split; [lia|]. destruct (x_act x m) as [a|] eqn:Ea; [|unfold got at 2 in Hl; cbn in Hl; lia].
    unfold got at 2 in Hl. cbn in Hl. destruct (got_one a) as [[]|] eqn:Eg; cbn in Hl; [|lia]. split; [lia|]. exists a. done.
  Qed.
  (** what is taken at that step is what was put there *)
  Local Lemma taken_is n c k : put (acts x (S n)) = put (acts x n) ++ [c] → (n < k)%nat → got (acts x k) = length (put (acts x n)) →
    happens is_got x k → l_q (x_at x k) = c :: l_q (x_at x (S k)).
  Proof using Hx.
    intros Hp Hk Hg (a&Ha&Hi). destruct (queued_reach o _ _ (reach k)) as (dn&Q). pose proof (step_at k a Ha) as St.
    destruct (queued_step o _ _ _ _ _ Q St) as [[? _]|(_&c'&E&_)]; [done|]. rewrite E. f_equal. destruct Q as [Q1 Q2 _ _].
    destruct (put_le (S n) k ltac:(lia)) as (r&Hr). rewrite Q1, Hp, E, <- app_assoc in Hr. cbn in Hr.
    apply app_inj_1 in Hr as [_ Hr]; [by injection Hr|congruence].
  Qed.

  (** ** nothing is stopped *)
  Lemma not_stopped n : never stop_by x → sbusy (l_loop (x_at x n)) = false.
  Proof using Hx.
    intros Hn. assert (no_call is_stop_call (acts x n)).
    { apply Forall_forall. intros a (k&_&Ha)%acts_in. destruct (is_stop_call a) eqn:E; [|done]. destruct (Hn k). by exists a. }
    by destruct (no_stop_inv o _ _ _ (reach n) H).
  Qed.
  Lemma statsd_got n : never stop_by x → ∃ m, (n ≤ m)%nat ∧ (length (put (acts x n)) ≤ got (acts x m))%nat.
  Proof using All.
    intros Hn. destruct (all_got n _ (Nat.le_refl _)) as (m&Hm&[?|H]); [by exists m|]. by rewrite not_stopped in H.
  Qed.
  Lemma taken_metrics n m dn h : (n ≤ m)%nat → queued (acts x m) (x_at x m) dn → sop_cmds h ++ q_metrics (l_q (x_at x m)) = accepted (acts x m) →
    (length (put (acts x n)) ≤ length dn)%nat → (length (accepted (acts x n)) ≤ length (sop_cmds h))%nat.
  Proof.
    intros Hm [Q1 Q2 _ _] Hh Hl. assert (Hp : put (acts x n) `prefix_of` dn).
    { destruct (prefix_weak_total (put (acts x n)) dn (put (acts x m))) as [|H3]; [by apply put_le|rewrite Q1; by eexists|done|].
      destruct H3 as (k&Hk). rewrite Hk, app_length in Hl. destruct k; [|cbn in Hl; lia]. rewrite app_nil_r in Hk. by rewrite Hk. }
    destruct Hp as (r&->). rewrite <- (put_metrics (acts x n)). rewrite <- (put_metrics (acts x m)), Q1, !q_metrics_app in Hh.
    apply (f_equal length) in Hh. rewrite !app_length in Hh. lia.
  Qed.
  Lemma statsd_processed n : never stop_by x → ∃ m, (n ≤ m)%nat ∧ processed o (acts x n) (acts x m) (x_at x m).
  Proof using All.
    intros Hn. destruct (statsd_got n Hn) as (m&Hm&Hg). exists m. split; [done|]. destruct (queued_reach o _ _ (reach m)) as (dn&Q).
    pose proof (linv_reach _ _ _ (reach m)) as [(h&Hr&Hacc) _ _ _ _ _]. destruct (run_sent o _ _ Hr) as [HS HL].
    exists (length (sop_cmds h)). split; [eapply taken_metrics; try done; by rewrite (qd_got _ _ _ Q)|]. split; [rewrite <- Hacc, app_length; lia|].
    split; [done|]. by rewrite <- Hacc, take_app.
  Qed.
  Lemma statsd_room n : never stop_by x → ∃ m, (n ≤ m)%nat ∧ room (x_at x m).
  Proof using All.
    intros Hn. destruct (decide (Z.of_nat (length (l_q (x_at x n))) < cmdChanBuffSize)) as [|Hfull]; [by exists n|].
    assert (Hmax : ∀ k, Z.of_nat (length (l_q (x_at x k))) ≤ cmdChanBuffSize).
    { induction k as [|k IH]; [rewrite (proj2 Hx); cbn; unfold cmdChanBuffSize; lia|].
      destruct (next _ x k (proj1 Hx)) as [[_ ->]|(a&_&St)]; [done|]. unfold cmdChanBuffSize in *.
      inversion St as [s c Hr|s Hr|s i Hr|s i Hr| | | | | | | |]; subst; unfold room, cmdChanBuffSize in *; cbn in *; rewrite ?app_length in *; cbn in *; try lia;
        repeat match goal with H : _ = x_at x k |- _ => rewrite <- H in IH; clear H end; cbn in *; lia. }
    destruct (gets n (not_stopped n Hn)) as (m&Hm&(a&Ha&Hp)). { intros E. rewrite E in Hfull. unfold cmdChanBuffSize in Hfull. cbn in Hfull. lia. }
    exists (S m). split; [lia|]. pose proof (step_at m a Ha) as St. destruct (queued_reach o _ _ (reach m)) as (dn&Q).
    destruct (queued_step o _ _ _ _ _ Q St) as [[? _]|(_&c&E&_)]; [done|]. specialize (Hmax m). rewrite E in Hmax. cbn in Hmax. unfold room. lia.
  Qed.

  (** ** no Drain either: a flush follows *)
  Lemma never_put (P : sact → Prop) c n : (∀ a, put [a] = [c] → P a) → never P x → c ∉ put (acts x n).
  Proof.
    intros Hc Hn. unfold put. rewrite elem_of_list_omap. intros (a&(k&_&Ha)%acts_in&Hput). apply (Hn k). exists a. split; [done|]. apply Hc. unfold put. cbn. by rewrite Hput.
  Qed.
  Lemma not_draining n : never drain_by x → dbusy (l_loop (x_at x n)) = false.
  Proof using All.
    intros Hn. destruct (queued_reach o _ _ (reach n)) as (dn&[Q1 _ _ Q4]). destruct (dbusy (l_loop (x_at x n))); [|done].
    exfalso. apply (never_put drain_by SDrain n); [by intros []|done|]. rewrite Q1. set_solver.
  Qed.
  Lemma statsd_delivered n : never stop_by x → never drain_by x → ∃ m, (n ≤ m)%nat ∧ delivered o (acts x n) (acts x m) (x_at x m).
  Proof using All.
    intros Hn Hd. destruct (sf_tick o x Hf n) as (k&Hk&(a&Ha&->)).
    { intros k Hk. destruct (statsd_room k Hn) as (m&Hm&Hr). exists m. split; [done|]. left. exists ATick. eexists. split; [done|]. split; [|by constructor]. pose proof (not_stopped m Hn) as Hst. by destruct (l_loop (x_at x m)). }
    assert (Hp : put (acts x (S k)) = put (acts x k) ++ [SFlush]) by (rewrite acts_S, Ha, put_app; done).
    destruct (statsd_got (S k) Hn) as (m&Hm&Hg). rewrite Hp, app_length in Hg. cbn in Hg.
    assert (Hle : (got (acts x (S k)) ≤ length (put (acts x k)))%nat).
    { rewrite acts_S, Ha, got_app. unfold got at 2. cbn. destruct (queued_reach o _ _ (reach k)) as (dn&[Q1 Q2 _ _]). rewrite Q1, app_length. lia. }
    destruct (crossing (S k) m (length (put (acts x k))) Hm Hle ltac:(lia)) as (j&Hj&Hgj&Hh).
    pose proof (taken_is k SFlush j Hp ltac:(lia) Hgj Hh) as Hq. destruct Hh as (b&Hb&Hi). pose proof (step_at j b Hb) as St.
    exists (S j). split; [lia|]. pose proof (not_draining j Hd) as Hdr. pose proof (not_stopped j Hn) as Hst.
    destruct (queued_reach o _ _ (reach j)) as (dn&Q). pose proof (linv_reach _ _ _ (reach j)) as [(h&Hr&Hacc) _ _ _ _ _].
    assert (Hlen : (length (accepted (acts x n)) ≤ length (sop_cmds h))%nat).
    { apply (taken_metrics n j dn h ltac:(lia) Q Hacc). rewrite (qd_got _ _ _ Q), Hgj. apply (prefix_length _ _ (put_le n k Hk)). }
    assert (Hs : x_at x (S j) = LSt (l_q (x_at x (S j))) LRun (sd_flush (l_sd (x_at x j))) (l_wd (x_at x j)) (l_ws (x_at x j)) ∧ b = ATake).
    { destruct (x_at x j) as [q l sdj wd ws]. cbn in *. subst q. inversion St; subst; try done. all: by destruct l. }
    destruct Hs as [Hs ->]. destruct (run_flush o h _ Hr) as [HA HB]. destruct (run_sent o _ _ HA) as [HS _]. rewrite HB, flush_empty in HS.
    rewrite acts_S, Hb. exists (length (sop_cmds h)). rewrite accepted_app. cbn. rewrite app_nil_r, <- Hacc. split; [done|]. split; [rewrite app_length; lia|].
    rewrite Hs. cbn. split; [apply flush_empty|]. by rewrite take_app.
  Qed.

  (** ** Stop, when there is no Drain *)
  Lemma statsd_stop n i : x_act x n = Some (AStopCall i) → (∀ m, happens stop_by x m → m = n) → never drain_by x →
    ∃ m, (n < m)%nat ∧ x_act x m = Some (AStopDone i).
  Proof using All.
    intros Ha Hu Hd. assert (Hp : put (acts x (S n)) = put (acts x n) ++ [SStop]) by (rewrite acts_S, Ha, put_app; done).
    assert (Hno : SStop ∉ put (acts x n)).
    { unfold put. rewrite elem_of_list_omap. intros (a&(k&Hk&Hak)%acts_in&Hput). destruct a; try done. assert (k = n); [|lia]. apply Hu. by eexists. }
    assert (Hnb : ∀ m, (got (acts x m) ≤ length (put (acts x n)))%nat → sbusy (l_loop (x_at x m)) = false).
    { intros m Hg. destruct (sbusy (l_loop (x_at x m))) eqn:Hb; [|done]. destruct (queued_reach o _ _ (reach m)) as (dn&[Q1 Q2 Q3 _]). specialize (Q3 Hb). exfalso. apply Hno.
      destruct (decide (n ≤ m)%nat) as [Hle|Hgt].
      - destruct (put_le n m Hle) as (r&Hr). rewrite Q1 in Hr. assert (Hd' : dn `prefix_of` put (acts x n)); [|destruct Hd' as (r'&->); set_solver].
        destruct (prefix_weak_total dn (put (acts x n)) (dn ++ l_q (x_at x m))) as [|H3]; [by eexists|rewrite Hr; by eexists|done|].
        destruct H3 as (k&Hk). assert (k = []) as -> by (apply nil_length_inv; rewrite Hk, app_length in Q2; lia). rewrite app_nil_r in Hk. by rewrite Hk.
      - destruct (put_le m n ltac:(lia)) as (r&->). rewrite Q1. set_solver. }
    assert (Hall : ∃ m, (S n ≤ m)%nat ∧ (S (length (put (acts x n))) ≤ got (acts x m))%nat).
    { destruct (all_got (S n) (S (length (put (acts x n))))) as (m&Hm&[?|Hb]); [rewrite Hp, app_length; cbn; lia|by exists m|]. exists m. split; [done|].
      destruct (decide (S (length (put (acts x n))) ≤ got (acts x m))%nat) as [|Hlt]; [done|]. rewrite Hnb in Hb; [done|lia]. }
    destruct Hall as (m&Hm&Hg).
    assert (Hle : (got (acts x (S n)) ≤ length (put (acts x n)))%nat).
    { rewrite acts_S, Ha, got_app. unfold got at 2. cbn. destruct (queued_reach o _ _ (reach n)) as (dn&[Q1 Q2 _ _]). rewrite Q1, app_length. lia. }
    destruct (crossing (S n) m (length (put (acts x n))) Hm Hle ltac:(lia)) as (j&Hj&Hgj&Hh).
    pose proof (taken_is n SStop j Hp ltac:(lia) Hgj Hh) as Hq. destruct Hh as (b&Hb&Hi). pose proof (step_at j b Hb) as St.
    pose proof (not_draining j Hd) as Hdr. pose proof (Hnb j ltac:(lia)) as Hst.
    assert (Hs : l_loop (x_at x (S j)) = LStopSend).
    { destruct (x_at x j) as [q l sdj wd ws]. cbn in *. subst q. inversion St; subst; try done. all: by destruct l. }
    (* only i waits *)
    assert (Hw0 : ∀ k, (k ≤ n)%nat → l_ws (x_at x k) = []).
    { induction k as [|k IH]; intros Hk; [by rewrite (proj2 Hx)|]. specialize (IH ltac:(lia)). destruct (next _ x k (proj1 Hx)) as [[_ ->]|(a&Hak&Stk)]; [done|].
      destruct (x_at x k) as [q l sdj wd ws]. cbn in IH. subst ws. inversion Stk; subst; try done.
      - assert (k = n); [|lia]. apply Hu. by eexists. }
    assert (Hw1 : ∀ k, (S n ≤ k)%nat → l_loop (x_at x k) ≠ LDone → l_ws (x_at x k) = [i]).
    { induction 1 as [|k Hk IH]; intros Hl.
      - pose proof (step_at n _ Ha) as Stn. pose proof (Hw0 n ltac:(lia)) as H0. inversion Stn; subst. cbn. by rewrite H0.
      - destruct (next _ x k (proj1 Hx)) as [[_ E]|(a&Hak&Stk)]; [rewrite E in *; by apply IH|].
        revert Hl Stk. generalize (x_at x (S k)). intros s' Hl Stk. destruct (x_at x k) as [q l sdj wd ws]. cbn in IH. inversion Stk; subst; cbn in *; try done; try (by apply IH).
        assert (k = n); [|lia]. apply Hu. by eexists. }
    destruct (weak_leads _ x (λ _, False) internal (λ s, l_loop s = LStopSend ∧ l_ws s ≠ []) (S j) (proj1 Hx) (sf_loop o x Hf) (none_false x _)) as (k&Hk&(c&Hc&Hic)&(Hlk&_)).
    - split; [done|]. rewrite (Hw1 (S j)); [done|lia|by rewrite Hs].
    - intros [q l sdj wd ws]. cbn. intros [-> Hw]. destruct ws as [|i' ws]; [done|]. exists (AStopDone i'). eexists. split; [done|]. constructor. left.
    - intros [q l sdj wd ws] a s' [Hl Hw] Sta. cbn in *. subst l. inversion Sta; subst; cbn; auto.
    - exists k. split; [lia|]. pose proof (step_at k c Hc) as Stk. pose proof (Hw1 k ltac:(lia)) as Hwk. rewrite Hlk in Hwk. specialize (Hwk ltac:(done)).
      destruct (x_at x k) as [q l sdj wd ws]. cbn in *. subst. inversion Stk; subst; try done. rewrite Hc. do 2 f_equal. set_solver.
  Qed.

  (** ** Drain, when at last it is left alone *)
  Lemma statsd_drain n i k : x_act x n = Some (ADrainCall i) → (∀ m, happens drain_by x m → m = n) → never stop_by x →
    (∀ m, (k ≤ m)%nat → happens enqueues x m → i ∉ l_wd (x_at x m)) → ∃ m, (n < m)%nat ∧ x_act x m = Some (ADrainDone i).
  Proof using All.
    intros Ha Hu Hs Hq.
    assert (Hw0 : ∀ k, (k ≤ n)%nat → l_wd (x_at x k) = []).
    { induction k0 as [|k0 IH]; intros Hk; [by rewrite (proj2 Hx)|]. specialize (IH ltac:(lia)). destruct (next _ x k0 (proj1 Hx)) as [[_ ->]|(a&Hak&Stk)]; [done|].
      destruct (x_at x k0) as [q l sdj wd ws]. cbn in IH. subst wd. inversion Stk; subst; try done.
      - assert (k0 = n); [|lia]. apply Hu. by eexists. }
    assert (Hone : ∀ m, (S n ≤ m)%nat → one_drain i (x_at x m)).
    { assert (Hns : ∀ m, cnt is_s (l_q (x_at x m)) = 0%nat).
      { intros m. assert (Hno : no_call is_stop_call (acts x m)).
        { apply Forall_forall. intros a (k0&_&Hak)%acts_in. destruct (is_stop_call a) eqn:E; [|done]. destruct (Hs k0). by exists a. }
        by destruct (no_stop_inv o _ _ _ (reach m) Hno). }
      induction 1 as [|m Hm IH].
      - pose proof (step_at n _ Ha) as St. pose proof (linv_reach _ _ _ (reach n)) as [_ _ _ Hld _ _]. pose proof (Hw0 n ltac:(lia)) as H0. rewrite H0 in Hld. cbn in Hld.
        pose proof (Hns (S n)) as HA. pose proof (not_stopped (S n) Hs) as HB. split; [done|]. split; [done|]. left.
        inversion St; subst; cbn in *. fold (cnt is_d (l_q (x_at x n) ++ [SDrain])). rewrite H0, !cnt_app, !cnt_cons, !cnt_nil. cbn. split; [done|lia].
      - destruct (next _ x m (proj1 Hx)) as [[_ ->]|(a&Hak&Stk)]; [done|]. eapply one_drain_step; [done|done| |].
        + destruct (is_drain_call a) eqn:E; [|done]. assert (m = n); [|lia]. apply Hu. by eexists.
        + destruct (is_stop_call a) eqn:E; [|done]. destruct (Hs m). by eexists. }
    (* it returns before it is no longer waiting *)
    assert (Hret : ∀ m, (S n ≤ m)%nat → i ∈ l_wd (x_at x m) ∨ ∃ j, (n < j < m)%nat ∧ x_act x j = Some (ADrainDone i)).
    { induction 1 as [|m Hm IH].
      - left. pose proof (step_at n _ Ha) as St. inversion St; subst. cbn. left.
      - destruct IH as [IH|(j&Hj&?)]; [|right; exists j; split; [lia|done]]. destruct (next _ x m (proj1 Hx)) as [[_ ->]|(a&Hak&Stk)]; [by left|].
        revert Stk. generalize (x_at x (S m)). intros s' Stk. destruct (x_at x m) as [q l sdj wd ws]. inversion Stk; subst; cbn in *; auto; [left; by right|].
        destruct (decide (i0 = i)) as [->|]; [right; exists m; split; [lia|done]|left]. apply remove_in. split; [done|congruence]. }
    assert (Hmain : ∀ b m, (S n ≤ m)%nat → (k ≤ m)%nat → (measure (x_at x m) < b)%nat → ∃ j, (n < j)%nat ∧ x_act x j = Some (ADrainDone i)).
    { induction b as [|b IH]; intros m Hm Hk Hb; [lia|]. destruct (Hret m Hm) as [Hin|(j&?&?)]; [|exists j; split; [lia|done]].
      (* the next step of the loop *)
      destruct (sf_loop o x Hf m) as (m'&Hm'&Hcase).
      assert (Hstay : ∀ j, (m ≤ j)%nat → (j ≤ m')%nat → (∃ j', (n < j')%nat ∧ x_act x j' = Some (ADrainDone i)) ∨ (∃ j', (m ≤ j' < j)%nat ∧ happens internal x j' ∧ x_at x j' = x_at x m) ∨ x_at x j = x_at x m).
      { induction 1 as [|j Hj IHj]; intros Hj'; [auto|]. destruct (IHj ltac:(lia)) as [?|[(j'&?&?)|E]]; [by left|right; left; exists j'; split; [lia|done]|].
        destruct (Hret j ltac:(lia)) as [Hinj|(j'&?&?)]; [|left; exists j'; split; [lia|done]].
        destruct (next _ x j (proj1 Hx)) as [[_ ->]|(a&Hak&Stk)]; [auto|]. destruct (decide (internal a)) as [Hia|Hia]; [right; left; exists j; split; [lia|]; split; [by exists a|done]|].
        exfalso. apply (Hq j ltac:(lia)); [by exists a|done]. }
      destruct (Hstay m' Hm' ltac:(lia)) as [?|[(j&Hj&(a&Haj&Hia)&Ej)|E]]; [done| |].
      - pose proof (internal_decreases _ _ _ _ Hia (step_at j a Haj)) as Hdec. rewrite Ej in Hdec. apply (IH (S j)); lia.
      - destruct Hcase as [(a&Haj&Hia)|Hno].
        + pose proof (internal_decreases _ _ _ _ Hia (step_at m' a Haj)) as Hdec. rewrite E in Hdec. apply (IH (S m')); lia.
        + destruct (one_drain_progress o _ i _ (linv_reach _ _ _ (reach m')) (Hone m' ltac:(lia))) as [E0|(a&s'&?&?)]; [|destruct Hno; by exists a, s'].
          rewrite E in E0. rewrite E0 in Hin. set_solver. }
    destruct (Hmain (S (measure (x_at x (max (S n) k)))) (max (S n) k)) as (j&?&?); [lia..|]. exists j. done.
  Qed.
End Statsd.
