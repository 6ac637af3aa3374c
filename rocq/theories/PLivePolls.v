(** * healthd hears from every host again and again (C128) *)
From Verif Require Import PFair PHealthd PHealthd2 PHealthd4 PHealthdLoop PHealthdLoop2 PHealthdLoop3 PLiveHealthd PLiveLeak PLiveSystem SLive9.

Section Polls.
  Context (hosts : list string) (x : exec hl (Z * hact)) (Hx : healthd_exec hosts x) (Hf : healthd_fair x) (Hn : never (is_act is_stop) x) (Ha : asks_fair x).

  Local Lemma reach n : hlsteps (hl_init hosts) (acts x n) (x_at x n).
  Proof using Hx.
    induction n as [|n IH]; [rewrite (he_start _ _ Hx); constructor|]. rewrite acts_S.
    destruct (next _ x n (he_exec _ _ Hx)) as [[-> ->]|(a&->&Hst)]; [by rewrite app_nil_r|]. apply hlsteps_snoc. eauto.
  Qed.
  Lemma polls_ran n : hrun (hd_init hosts) (ops (acts x n)) (Ok (l_hd (x_at x n))).
  Proof using Hx. apply loop_ops; [apply reach|apply (he_crash _ _ Hx)]. Qed.
  Local Lemma step_at n a : x_act x n = Some a → hlstep (x_at x n) a (x_at x (S n)).
  Proof using Hx. intros H. destruct (next _ x n (he_exec _ _ Hx)) as [[E _]|(b&E&Hst)]; congruence. Qed.
  Ltac stp St := inversion St; subst; unfold MHealthdLoop.after in *; repeat match goal with |- context [match ?r with Ok _ => _ | Crash _ => _ end] => destruct r eqn:? end; cbn in *.

  Lemma rounds_length n : length (l_rounds (x_at x n)) = rounds_before x n.
  Proof using Hx.
    induction n as [|n IH]; [by rewrite (he_start _ _ Hx)|]. pose proof (he_crash _ _ Hx (S n)) as Hc. revert IH. unfold rounds_before. rewrite acts_S.
    destruct (next _ x n (he_exec _ _ Hx)) as [[-> ->]|([t a]&->&St)]; [by rewrite app_nil_r|].
    rewrite omap_app, app_length. intros IH. revert St Hc IH. generalize (x_at x (S n)). generalize (length (omap (λ a : Z * hact, match a.2 with HTick _ => Some () | _ => None end) (acts x n))). intros N s' St Hc IH. revert Hc.
    stp St; intros Hc; rewrite ?app_length, ?insert_length; cbn; try lia; done.
  Qed.
  Local Lemma resp_bound n : (length (l_resp (x_at x n)) ≤ 64)%nat.
  Proof using Hx.
    induction n as [|n IH]; [rewrite (he_start _ _ Hx); cbn; lia|].
    destruct (next _ x n (he_exec _ _ Hx)) as [[_ ->]|(a&_&St)]; [done|]. by eapply resp_step.
  Qed.
  (** there is room for a response again and again *)
  Local Lemma room_again n : ∃ m, (n ≤ m)%nat ∧ Z.of_nat (length (l_resp (x_at x m))) < resp_cap.
  Proof using Hx Hf Hn.
    unfold resp_cap. destruct (decide (length (l_resp (x_at x n)) = 64)%nat) as [E|Hne].
    - destruct (PLiveHealthd.receives hosts x Hx Hf Hn n) as (m&[t a]&Hm&Hact&Hp); [by intros E'; rewrite E' in E|].
      exists (S m). split; [lia|]. pose proof (step_at m _ Hact) as St. pose proof (resp_bound m) as Hb. pose proof (he_crash _ _ Hx (S m)) as Hc.
      revert St Hc. generalize (x_at x (S m)). intros s' St Hc. revert Hc. destruct a; try done; stp St; intros Hc; try done;
        match goal with H : l_resp _ = _ |- _ => rewrite H in Hb end; cbn in Hb; lia.
    - exists n. split; [done|]. pose proof (resp_bound n). lia.
  Qed.

  Definition waits (k : nat) (h : string) (s : hl) : Prop := ∃ rem, l_rounds s !! k = Some (Some rem) ∧ h ∈ rem.
  #[local] Instance waits_dec k h s : Decision (waits k h s).
  Proof.
    destruct (l_rounds s !! k) as [[rem|]|] eqn:E; [|right; intros (rem&E'&_); congruence..].
    destruct (decide (h ∈ rem)); [left; by exists rem|right; intros (rem'&E'&?); congruence].
  Defined.
  Local Lemma remove_other h h' (l : list string) : h ∈ l → h ≠ h' → h ∈ remove string_dec h' l.
  Proof using. rewrite !elem_of_list_In. intros. by apply in_in_remove. Qed.
  (** a poll ends *)
  Lemma waits_over n k h : waits k h (x_at x n) → ∃ m t r, (n ≤ m)%nat ∧ x_act x m = Some (t, HPush k r) ∧ r_hp r = h.
  Proof using Hx Hf Hn Ha.
    intros Hw. destruct (PLiveHealthd.strong hosts x Hx Hf (is_answer_of k h) (waits k h) n (af_answer x Ha k h) Hw) as (m&[t a]&Hm&Hact&Hp&_).
    - intros j _. destruct (room_again j) as (m&Hm&Hr). exists m. split; [done|]. intros (rem&E&Hin).
      exists (0, HPush k (Resp h 0 None 0 0 "" 0 [])). eexists. split; [done|]. by eapply Hl_push; [apply (he_crash _ _ Hx)|..].
    - intros s [t a] s' (rem&E&Hin) St. unfold waits. stp St; try (by right; exists rem).
      + right. exists rem. split; [|done]. by apply lookup_app_l_Some.
      + destruct (decide (k0 = k ∧ r_hp r = h)) as [|Hne]; [by left|]. right. destruct (decide (k0 = k)) as [-> |Hk].
        * simplify_eq. eexists. rewrite list_lookup_insert by (by eapply lookup_lt_Some). split; [done|]. apply remove_other; [done|]. naive_solver.
        * exists rem. rewrite list_lookup_insert_ne by done. done.
      + right. exists rem. destruct (decide (k0 = k)) as [-> |Hk]; [|by rewrite list_lookup_insert_ne].
        simplify_eq. by apply elem_of_nil in Hin.
    - destruct a; try done. exists m, t, r. cbn in Hp. destruct Hp as [-> ?]. done.
  Qed.
  (** a poll that is over does not begin again *)
  Definition done_with (K : nat) (h : string) (s : hl) : Prop := (K ≤ length (l_rounds s))%nat ∧ ∀ k, (k < K)%nat → ¬ waits k h s.
  Local Lemma in_remove' h h' (l : list string) : h ∈ remove string_dec h' l → h ∈ l ∧ h ≠ h'.
  Proof using. rewrite !elem_of_list_In. intros H%in_remove. done. Qed.
  Lemma done_step K h s a s' : hlstep s a s' → done_with K h s → done_with K h s'.
  Proof using.
    intros St [HK Hd]. unfold done_with, waits in *. stp St; rewrite ?app_length, ?insert_length; (split; [lia|]); try done; intros k' Hk (rem'&E&Hin).
    - rewrite lookup_app_l in E by lia. apply (Hd k' Hk). by exists rem'.
    - destruct (decide (k = k')) as [-> |Hne].
      + rewrite list_lookup_insert in E by lia. injection E as <-. apply in_remove' in Hin as [Hin _]. apply (Hd k' Hk). by exists rem.
      + rewrite list_lookup_insert_ne in E by done. apply (Hd k' Hk). by exists rem'.
    - destruct (decide (k = k')) as [-> |Hne].
      + rewrite list_lookup_insert in E by lia. done.
      + rewrite list_lookup_insert_ne in E by done. apply (Hd k' Hk). by exists rem'.
  Qed.
  Lemma done_later K h n m : (n ≤ m)%nat → done_with K h (x_at x n) → done_with K h (x_at x m).
  Proof using Hx.
    induction 1 as [|m _ IH]; [done|]. intros H. destruct (next _ x m (he_exec _ _ Hx)) as [[_ ->]|(a&_&St)]; [by apply IH|]. eapply done_step; [exact St|by apply IH].
  Qed.
  Local Lemma over_step k h t r s s' : hlstep s (t, HPush k r) s' → r_hp r = h → ¬ waits k h s'.
  Proof using.
    intros St <- (rem'&E&Hin). stp St. rewrite list_lookup_insert in E by (by eapply lookup_lt_Some). injection E as <-. apply in_remove' in Hin as [_ ?]. done.
  Qed.
  Lemma done_some_day K h n : (K ≤ rounds_before x n)%nat → ∃ m, (n ≤ m)%nat ∧ done_with K h (x_at x m).
  Proof using Hx Hf Hn Ha.
    intros HK. induction K as [|K IH].
    - exists n. split; [done|]. split; [rewrite rounds_length; lia|]. intros; lia.
    - destruct IH as (m&Hm&Hd); [lia|]. destruct (decide (waits K h (x_at x m))) as [Hw|Hw].
      + destruct (waits_over m K h Hw) as (m'&t&r&Hm'&Hact&Hr). exists (S m'). split; [lia|]. pose proof (done_later K h m (S m') ltac:(lia) Hd) as [D1 D2].
        assert (HW := over_step _ _ _ _ _ _ (step_at _ _ Hact) Hr).
        split.
        { rewrite rounds_length in *. transitivity (rounds_before x n); [done|]. rewrite <- !rounds_length. clear -Hx Hm Hm'.
          assert (Hle : (n ≤ S m')%nat) by lia. revert Hle. generalize (S m'). induction 1 as [|j _ IH]; [done|]. etrans; [exact IH|].
          destruct (next _ x j (he_exec _ _ Hx)) as [[_ ->]|([t a]&_&St)]; [done|]. revert St. generalize (x_at x (S j)). intros s' St. stp St; rewrite ?app_length, ?insert_length; lia. }
        intros k Hk. destruct (decide (k = K)) as [-> |]; [done|]. apply D2. lia.
      + exists m. split; [done|]. destruct Hd as [D1 D2]. split.
        { transitivity (rounds_before x n); [done|]. rewrite <- !rounds_length. clear -Hx Hm.
          revert Hm. induction 1 as [|j _ IH]; [done|]. etrans; [exact IH|].
          destruct (next _ x j (he_exec _ _ Hx)) as [[_ ->]|([t a]&_&St)]; [done|]. revert St. generalize (x_at x (S j)). intros s' St. stp St; rewrite ?app_length, ?insert_length; lia. }
        intros k Hk. destruct (decide (k = K)) as [-> |]; [done|]. apply D2. lia.
  Qed.
  (** what is put into the queue after that, and what is in it later *)
  Definition newer (K : nat) (h : string) (e : nat * option resp) : Prop := ∀ r, e.2 = Some r → r_hp r = h → (K ≤ e.1)%nat.
  Lemma pushed_newer K h n m : (n ≤ m)%nat → done_with K h (x_at x n) → ∃ L, pushed (acts x m) = pushed (acts x n) ++ L ∧ Forall (newer K h) L.
  Proof using Hx.
    intros Hm Hd. induction Hm as [|m Hm IH]; [exists []; by rewrite app_nil_r|]. destruct IH as (L&E&HL). rewrite acts_S. unfold pushed in *. rewrite omap_app.
    destruct (x_act x m) as [[t a]|] eqn:Hact; [|exists L; by rewrite app_nil_r].
    pose proof (done_later K h n m Hm Hd) as [D1 D2]. pose proof (step_at _ _ Hact) as St. rewrite E. cbn.
    destruct a; cbn; try (exists L; by rewrite app_nil_r).
    - exists (L ++ [(k, Some r)]). rewrite app_assoc. split; [done|]. apply Forall_app. split; [done|]. repeat constructor. intros r' [= <-] Hr. cbn.
      destruct (decide (K ≤ k)%nat) as [|Hlt]; [done|]. destruct (D2 k ltac:(lia)). inversion St; subst. by exists rem.
    - exists (L ++ [(k, None)]). rewrite app_assoc. split; [done|]. apply Forall_app. split; [done|]. repeat constructor. by intros r'.
  Qed.
  Lemma queue_newer K h n : (K ≤ rounds_before x n)%nat → ∃ m, (n ≤ m)%nat ∧ ∀ m', (m ≤ m')%nat → Forall (newer K h) (l_resp (x_at x m')).
  Proof using Hx Hf Hn Ha.
    intros HK. destruct (done_some_day K h n HK) as (m0&Hm0&Hd). destruct (healthd_received hosts x Hx Hf Hn m0) as (m&Hm&Hpre).
    exists m. split; [lia|]. intros m' Hm'. destruct (pushed_newer K h m0 m' ltac:(lia) Hd) as (L&E&HL).
    pose proof (PLiveHealthd.resp_fifo hosts x Hx Hf Hn m') as Hq. rewrite E in Hq.
    assert (Hp : pushed (acts x m0) `prefix_of` received (acts x m')).
    { etrans; [exact Hpre|]. destruct (acts_le x m m' Hm') as (z&->). unfold received. rewrite omap_app. by eexists. }
    destruct Hp as (z&Ez). rewrite Ez, <- app_assoc in Hq. apply app_inv_head in Hq. subst L. apply Forall_app in HL. tauto.
  Qed.

  (** a round begins *)
  Lemma ticks_again n : ∃ m t now, (n ≤ m)%nat ∧ x_act x m = Some (t, HTick now).
  Proof using Hx Hf Hn Ha.
    destruct (PLiveHealthd.strong_sel hosts x Hx Hf Hn is_tick (λ _, True) n (af_tick x Ha) I) as (m&[t a]&Hm&Hact&Hp&_).
    - intros s E _. exists (0, HTick (λ _, 0)). eexists. split; [done|]. by constructor.
    - auto.
    - destruct a; try done. by exists m, t, now.
  Qed.
  Lemma host_waits n h t now : h ∈ hosts → x_act x n = Some (t, HTick now) → waits (rounds_before x n) h (x_at x (S n)).
  Proof using Hx.
    intros Hh Hact. pose proof (step_at _ _ Hact) as St. pose proof (he_crash _ _ Hx (S n)) as Hc. rewrite <- rounds_length.
    pose proof (hosts_of_perm _ _ _ (polls_ran n)) as Hp. revert St Hc. generalize (x_at x (S n)). intros s' St Hc. revert Hc. stp St; intros Hc; [|done].
    exists (hosts_of (l_hd (x_at x n))). cbn. rewrite list_lookup_middle by done. split; [done|]. rewrite Hp. by apply elem_of_remove_dups.
  Qed.
  Lemma heard_again n h : h ∈ hosts → ∃ m t k r t1 t2, (n < m)%nat ∧ x_act x m = Some (t, HTakeResp k r t1 t2) ∧ r_hp r = h ∧ (rounds_before x n ≤ k)%nat.
  Proof using Hx Hf Hn Ha.
    intros Hh. destruct (ticks_again n) as (m0&t0&now&Hm0&Htick). pose proof (host_waits m0 h t0 now Hh Htick) as Hw.
    destruct (waits_over _ _ _ Hw) as (m1&t1&r&Hm1&Hpush&Hr). destruct (push_taken hosts x Hx Hf Hn _ _ _ _ Hpush) as (m2&t2&u1&u2&Hm2&Htake).
    exists m2, t2, (rounds_before x m0), r, u1, u2. split; [lia|]. do 2 (split; [done|]).
    unfold rounds_before. destruct (acts_le x n m0 Hm0) as (z&->). rewrite omap_app, app_length. lia.
  Qed.

  (** the last response *)
  Lemma last_newer n h : h ∈ hosts → ∃ m, (n < m)%nat ∧ ∀ m', (m ≤ m')%nat → ∃ k r, last_of x m' h k r ∧ (rounds_before x n ≤ k)%nat.
  Proof using Hx Hf Hn Ha.
    intros Hh. destruct (queue_newer (rounds_before x n) h n (le_n _)) as (m0&Hm0&Hq).
    destruct (heard_again m0 h Hh) as (m1&t&k&r&t1&t2&Hm1&Htake&Hr&Hk). exists (S m1). split; [lia|]. intros m' Hm'.
    assert (Hkn : (rounds_before x n ≤ k)%nat). { etrans; [|exact Hk]. unfold rounds_before. destruct (acts_le x n m0 Hm0) as (z&->). rewrite omap_app, app_length. lia. }
    clear Hk. induction Hm' as [|m' Hm' IH].
    - exists k, r. split; [|done]. split; [done|]. exists m1, t, t1, t2. split; [lia|]. split; [done|]. intros; lia.
    - destruct IH as (k'&r'&(Hr'&q&t'&u1&u2&Hq1&Hq2&Hq3)&Hk'). 
      assert (Hdec : (∃ t k r t1 t2, x_act x m' = Some (t, HTakeResp k r t1 t2) ∧ r_hp r = h) ∨ ∀ t k r t1 t2, x_act x m' = Some (t, HTakeResp k r t1 t2) → r_hp r ≠ h).
      { destruct (x_act x m') as [[tt []]|]; try (by right). destruct (decide (r_hp r0 = h)) as [|Hne]; [left; by eauto 10|right; congruence]. }
      destruct Hdec as [(t3&k3&r3&v1&v2&Hact&Hr3)|Hno].
      + exists k3, r3. split.
        * split; [done|]. exists m', t3, v1, v2. split; [lia|]. split; [done|]. intros; lia.
        * pose proof (step_at _ _ Hact) as St. specialize (Hq m' ltac:(lia)). inversion St; subst.
          match goal with H : l_resp _ = _ |- _ => rewrite H in Hq end. apply Forall_cons in Hq as [Hq _]. by eapply Hq.
      + exists k', r'. split; [|done]. split; [done|]. exists q, t', u1, u2. split; [lia|]. split; [done|]. intros p t'' k'' r'' w1 w2 Hp Hact.
        destruct (decide (p = m')) as [-> |]; [by eapply Hno|]. eapply Hq3; [|exact Hact]. lia.
  Qed.
  Lemma all_newer n : ∃ m, (n < m)%nat ∧ ∀ m' h, (m ≤ m')%nat → h ∈ hosts → ∃ k r, last_of x m' h k r ∧ (rounds_before x n ≤ k)%nat.
  Proof using Hx Hf Hn Ha.
    assert (H : ∀ l : list string, (∀ h, h ∈ l → h ∈ hosts) → ∃ m, (n < m)%nat ∧ ∀ m' h, (m ≤ m')%nat → h ∈ l → ∃ k r, last_of x m' h k r ∧ (rounds_before x n ≤ k)%nat).
    { induction l as [|h l IH]; intros Hl.
      - exists (S n). split; [lia|]. intros m' h _ Hh. by apply elem_of_nil in Hh.
      - destruct IH as (m1&Hm1&H1). { intros h' Hh'. apply Hl. by right. }
        destruct (last_newer n h) as (m2&Hm2&H2). { apply Hl. by left. }
        exists (max m1 m2). split; [lia|]. intros m' h' Hm' Hh'. apply elem_of_cons in Hh' as [-> |Hh']; [apply H2; lia|apply H1; [lia|done]]. }
    apply H. done.
  Qed.

  (** ** what the statuses say *)
  Lemma last_unique m h k r k' r' : last_of x m h k r → last_of x m h k' r' → k' = k ∧ r' = r.
  Proof using.
    intros (Hr&q&t&t1&t2&Q1&Q2&Q3) (Hr'&p&u&u1&u2&P1&P2&P3). destruct (lt_eq_lt_dec q p) as [[Hlt|Heq]|Hlt].
    - by destruct (Q3 p u k' r' u1 u2 ltac:(lia) P2).
    - subst p. rewrite Q2 in P2. by injection P2.
    - by destruct (P3 q t k r t1 t2 ltac:(lia) Q2).
  Qed.
  Local Lemma none_last m h : (∀ t k r t1 t2, x_act x m = Some (t, HTakeResp k r t1 t2) → r_hp r ≠ h) →
    host_resps h (ops (match x_act x m with Some a => [a] | None => [] end)) = [].
  Proof using.
    intros H. destruct (x_act x m) as [[t a]|]; [|done]. destruct a; try done. cbn. rewrite decide_False; [done|]. by eapply H.
  Qed.
  Local Lemma resps_app h tr tr' : host_resps h (ops (tr ++ tr')) = host_resps h (ops tr) ++ host_resps h (ops tr').
  Proof using. unfold host_resps, ops. by rewrite !omap_app. Qed.
  Lemma last_resps m h k r : last_of x m h k r → ∃ t1 t2, last (host_resps h (ops (acts x m))) = Some (r, t1, t2).
  Proof using.
    intros (Hr&q&t&t1&t2&Hq&Hact&Hlater). exists t1, t2. induction Hq as [|m Hq IH]; rewrite acts_S, resps_app.
    - rewrite Hact. cbn. rewrite decide_True by done. by rewrite last_snoc.
    - rewrite (none_last m), app_nil_r.
      + apply IH. intros p ? ? ? ? ? Hp. apply Hlater. lia.
      + intros. eapply (Hlater m); [lia|done].
  Qed.
  (** ** pages *)
  Context (Ht : clock_right x).
  Lemma page_says m t j l : x_act x m = Some (t, HRet j (AnsH l)) → NoDup (map hs_hp l) ∧ (∀ h, h ∈ map hs_hp l ↔ h ∈ hosts) ∧
    ∀ hs k r, hs ∈ l → last_of x m (hs_hp hs) k r → says hs r.
  Proof using Hx Ht.
    intros Hact. pose proof (reply_inv _ _ _ (reach m)) as Hr. pose proof (step_at _ _ Hact) as St. unfold reply_ok in Hr.
    revert St. generalize (x_at x (S m)). intros s' St. inversion St; subst. match goal with H : l_loop _ = _ |- _ => rewrite H in Hr end. clear St. destruct Hr as (l'&Hl'&->).
    destruct (statuses_listed hosts (ops (acts x m)) (l_hd (x_at x m)) l' (polls_ran m)) as (P1&P2&P3); [|done|].
    { intros r t1 t2 Hin. unfold ops in Hin. apply elem_of_list_omap in Hin as ([u b]&Hin&E). apply acts_in in Hin as (q&_&Hq). destruct b; cbn in E; simplify_eq. by eapply Ht. }
    unfold safe_hosts in *. split; [done|]. split; [done|]. intros hs k r Hin Hlast. destruct (P3 hs Hin) as (_&Hst&_). destruct (last_resps _ _ _ _ Hlast) as (t1&t2&E). rewrite E in Hst.
    destruct Hlast as [Hr _]. unfold says. rewrite Hr. tauto.
  Qed.
  Lemma pages_newer n : ∃ m, (n < m)%nat ∧ ∀ m' t j l, (m ≤ m')%nat → x_act x m' = Some (t, HRet j (AnsH l)) →
    NoDup (map hs_hp l) ∧ (∀ h, h ∈ map hs_hp l ↔ h ∈ hosts) ∧
    ∀ hs, hs ∈ l → ∃ k r, last_of x m' (hs_hp hs) k r ∧ says hs r ∧ (rounds_before x n ≤ k)%nat.
  Proof using Hx Hf Hn Ha Ht.
    destruct (all_newer n) as (m&Hm&Hall). exists m. split; [done|]. intros m' t j l Hm' Hact. destruct (page_says _ _ _ _ Hact) as (P1&P2&P3).
    split; [done|]. split; [done|]. intros hs Hin. destruct (Hall m' (hs_hp hs) Hm') as (k&r&Hlast&Hk).
    { apply P2. rewrite elem_of_list_In. apply in_map. by rewrite <- elem_of_list_In. }
    exists k, r. split; [done|]. split; [by eapply P3|done].
  Qed.
End Polls.
