(** * healthd goes on (C113) *)
From Verif Require Import SLive2 PFair PHealthd PHealthd2 PHealthd4 PHealthdEx PHealthdLoop PHealthdLoop2 PHealthdLoop3 PHealthdLoopEx.

#[local] Instance is_queue_dec i a : Decision (is_queue i a).
Proof. destruct a; cbn; apply _. Defined.

Section Healthd.
  Context (hosts : list string) (x : exec hl (Z * hact)) (Hx : healthd_exec hosts x) (Hf : healthd_fair x).

  Local Lemma reach n : hlsteps (hl_init hosts) (acts x n) (x_at x n).
  Proof using All.
    induction n as [|n IH]; [rewrite (he_start _ _ Hx); constructor|]. rewrite acts_S.
    destruct (next _ x n (he_exec _ _ Hx)) as [[-> ->]|(a&->&Hs)]; [by rewrite app_nil_r|]. apply hlsteps_snoc. eauto.
  Qed.
  Local Lemma step_at n a : x_act x n = Some a → hlstep (x_at x n) a (x_at x (S n)).
  Proof using All. intros H. destruct (next _ x n (he_exec _ _ Hx)) as [[E _]|(b&E&Hst)]; congruence. Qed.
  Local Lemma weak P (J : hl → Prop) n : weakly_fair hlstep (is_act P) x → J (x_at x n) → (∀ s, l_loop s ≠ ACrash → J s → possible hlstep (is_act P) s) →
    (∀ s a s', J s → hlstep s a s' → P a.2 ∨ J s') → ∃ m a, (n ≤ m)%nat ∧ x_act x m = Some a ∧ P a.2 ∧ J (x_at x m).
  Proof using All.
    intros H1 H2 H3 H4. destruct (weak_leads_at _ x (λ _, False) _ J n (he_exec _ _ Hx) H1 (none_false x n) H2 (λ m _, H3 _ (he_crash _ _ Hx m))) as (m&Hm&(a&Ha&Hp)&Hj).
    { intros s a s' Hs St. destruct (H4 s a s' Hs St); auto. }
    exists m, a. done.
  Qed.
  Local Lemma strong P (J : hl → Prop) n : strongly_fair hlstep (is_act P) x → J (x_at x n) →
    (∀ k, (n ≤ k)%nat → ∃ m, (k ≤ m)%nat ∧ (J (x_at x m) → possible hlstep (is_act P) (x_at x m))) →
    (∀ s a s', J s → hlstep s a s' → P a.2 ∨ J s') → ∃ m a, (n ≤ m)%nat ∧ x_act x m = Some a ∧ P a.2 ∧ J (x_at x m).
  Proof using All.
    intros H1 H2 H3 H4. destruct (strong_leads _ x (λ _, False) _ J n (he_exec _ _ Hx) H1 (none_false x n) H2) as (m&Hm&(a&Ha&Hp)&Hj).
    { intros k Hk _. by apply H3. }
    { intros s a s' Hs St. destruct (H4 s a s' Hs St); auto. }
    exists m, a. done.
  Qed.

  (** what a step leaves alone *)
  Ltac stp St := inversion St; subst; unfold after in *; repeat match goal with |- context [match ?r with Ok _ => _ | Crash _ => _ end] => destruct r eqn:? end; cbn in *.

  (** ** back to the select *)
  Local Lemma req_sent n : l_loop (x_at x n) = AReq → ∃ m t, (n ≤ m)%nat ∧ x_act x m = Some (t, HReq).
  Proof using All.
    assert (H1 : ∀ n, l_loop (x_at x n) = AReq → l_req (x_at x n) < 64 → ∃ m t, (n ≤ m)%nat ∧ x_act x m = Some (t, HReq)).
    { intros n0 E1 E2. destruct (weak is_req (λ s, l_loop s = AReq ∧ l_req s < 64) n0 (hf_req x Hf)) as (m&[t a]&Hm&Ha&Hp&_).
      - done.
      - intros s _ [? ?]. exists (0, HReq). eexists. split; [done|]. by constructor.
      - intros s [t a] s' [A1 A2] St. stp St; auto; try congruence; try (by left); right; (split; [done|lia]).
      - unfold is_req in Hp. cbn in Hp. subst a. eauto. }
    assert (H2 : ∀ n o, l_loop (x_at x n) = AReq → l_req (x_at x n) = 64 → l_deb (x_at x n) = DTop o → ∃ m t, (n ≤ m)%nat ∧ x_act x m = Some (t, HReq)).
    { intros n0 o E1 E2 E3. destruct (weak is_deb (λ s, l_loop s = AReq ∧ l_req s = 64 ∧ l_deb s = DTop o) n0 (hf_deb x Hf)) as (m&[t a]&Hm&Ha&Hp&A1&A2&A3).
      - done.
      - intros s _ (?&?&E). exists (0, HDeb DTake). eexists. split; [done|]. constructor; [congruence|lia|]. rewrite E. constructor.
      - intros s [t a] s' (A1&A2&A3) St. stp St; auto; try congruence; try (by left). unfold req_cap in *. lia.
      - destruct a as [| | | | | |d| | | | | | | | | |]; try done. pose proof (step_at m _ Ha) as St.
        destruct (H1 (S m)) as (k&t'&Hk&?); [| |exists k, t'; split; [lia|done]].
        + revert A1 A2 A3 St. generalize (x_at x (S m)). intros s' A1 A2 A3 St. stp St; congruence.
        + revert A1 A2 A3 St. generalize (x_at x (S m)). intros s' A1 A2 A3 St. stp St; try lia. rewrite A3 in *. match goal with H : dstep _ _ _ _ |- _ => inversion H end. }
    intros E. pose proof (req_bound _ _ _ (reach n)) as [Hb _]. destruct (decide (l_req (x_at x n) < 64)) as [|Hge]; [auto|].
    assert (E2 : l_req (x_at x n) = 64) by lia. destruct (l_deb (x_at x n)) as [o|o|o] eqn:Ed; [by eapply H2| |].
    - destruct (weak is_deb (λ s, l_loop s = AReq ∧ l_req s = 64 ∧ l_deb s = DChk o) n (hf_deb x Hf)) as (m&[t a]&Hm&Ha&Hp&A1&A2&A3).
      + done.
      + intros s _ (?&?&E'). exists (0, HDeb DCheck). eexists. split; [done|]. constructor; [congruence|]. rewrite E'. constructor.
      + intros s [t a] s' (A1&A2&A3) St. stp St; auto; try congruence; try (by left). unfold req_cap in *. lia.
      + destruct a as [| | | | | |d| | | | | | | | | |]; try done. pose proof (step_at m _ Ha) as St.
        assert (HS : l_loop (x_at x (S m)) = AReq ∧ l_req (x_at x (S m)) = 64 ∧ (l_deb (x_at x (S m)) = DTop o ∨ l_deb (x_at x (S m)) = DSnd o)).
        { revert A1 A2 A3 St. generalize (x_at x (S m)). intros s' A1 A2 A3 St. stp St; rewrite A3 in *;
            match goal with H : dstep _ _ _ _ |- _ => inversion H; subst end. split; [done|]. split; [done|]. case_match; auto. }
        destruct HS as (B1&B2&[B3|B3]).
        * destruct (H2 (S m) o B1 B2 B3) as (k&t'&?&?). exists k, t'. split; [lia|done].
        * destruct (he_wedge _ _ Hx (S m)). split; [done|]. split; [done|]. by exists o.
    - destruct (he_wedge _ _ Hx n). split; [done|]. split; [done|]. by exists o.
  Qed.
  Local Lemma answered n i : (∃ out, l_loop (x_at x n) = AReplyI i out ∨ ∃ o, l_loop (x_at x n) = AReplyH i o) →
    ∃ m t a, (n ≤ m)%nat ∧ x_act x m = Some (t, HRet i a) ∧ l_loop (x_at x (S m)) = ASel.
  Proof using All.
    intros H. destruct (weak is_ret (λ s, ∃ out, l_loop s = AReplyI i out ∨ ∃ o, l_loop s = AReplyH i o) n (hf_ret x Hf)) as (m&[t a]&Hm&Ha&Hp&A).
    - done.
    - intros s _ (out&[E|(o&E)]); [exists (0, HRet i (AnsI out))|exists (0, HRet i (AnsH o))]; eexists; (split; [done|]); by constructor.
    - intros s [t a] s' (out&[E|(o&E)]) St; stp St; auto; try congruence; right; exists out; eauto.
    - destruct a as [| | | | | | | | | | | | |j a| | |]; try done. exists m, t, a. split; [done|]. pose proof (step_at m _ Ha) as St.
      revert A St Ha. generalize (x_at x (S m)). intros s' A St Ha. destruct A as (out&[E|(o&E)]); stp St; try congruence; rewrite E in *; simplify_eq; done.
  Qed.
  Local Lemma select_again n : running (x_at x n) → ∃ m, (n ≤ m)%nat ∧ l_loop (x_at x m) = ASel.
  Proof using All.
    intros (R1&R2&R3). destruct (l_loop (x_at x n)) as [| |i out|i out| | |] eqn:E; try done; [by exists n| | |].
    - destruct (req_sent n E) as (m&t&Hm&Ha). exists (S m). split; [lia|]. pose proof (step_at m _ Ha) as St. by inversion St; subst.
    - destruct (answered n i) as (m&t&a&Hm&_&?); [by exists out; left|]. exists (S m). split; [lia|done].
    - destruct (answered n i) as (m&t&a&Hm&_&?); [exists []; right; by exists out|]. exists (S m). split; [lia|done].
  Qed.

  (** ** while nobody calls Stop *)
  Section Running.
    Context (Hn : never (is_act is_stop) x).
    Local Lemma runs n : running (x_at x n).
    Proof using All.
      assert (H : l_loop (x_at x n) ≠ ABye ∧ l_loop (x_at x n) ≠ AGone ∧ l_stop (x_at x n) = []).
      { apply (always _ x _ (λ s, l_loop s ≠ ABye ∧ l_loop s ≠ AGone ∧ l_stop s = []) 0 (he_exec _ _ Hx) Hn); [by rewrite (he_start _ _ Hx)| |lia].
        intros s [t a] s' (A1&A2&A3) H2 St. stp St; try done. rewrite A3 in *. set_solver. }
      destruct H as (?&?&_). split; [done|]. split; [done|]. apply (he_crash _ _ Hx).
    Qed.
    Lemma healthd_select n : ∃ m, (n ≤ m)%nat ∧ l_loop (x_at x m) = ASel.
    Proof using All. apply select_again, runs. Qed.
    Local Lemma strong_sel P (J : hl → Prop) n : strongly_fair hlstep (is_act P) x → J (x_at x n) →
      (∀ s, l_loop s = ASel → J s → possible hlstep (is_act P) s) →
      (∀ s a s', J s → hlstep s a s' → P a.2 ∨ J s') → ∃ m a, (n ≤ m)%nat ∧ x_act x m = Some a ∧ P a.2 ∧ J (x_at x m).
    Proof using All.
      intros H1 H2 H3 H4. apply strong; [done..| |done]. intros k Hk. destruct (healthd_select k) as (m&Hm&E). exists m. split; [done|]. by apply H3.
    Qed.

    (** ** responses *)
    Local Lemma resp_fifo n : pushed (acts x n) = received (acts x n) ++ l_resp (x_at x n).
    Proof using All.
      induction n as [|n IH]; [by rewrite (he_start _ _ Hx)|]. rewrite acts_S. pose proof (he_crash _ _ Hx (S n)) as Hc.
      destruct (next _ x n (he_exec _ _ Hx)) as [[-> ->]|([t a]&->&St)]; [by rewrite app_nil_r|].
      unfold pushed, received in *. rewrite !omap_app, IH. clear IH. revert St Hc. generalize (x_at x (S n)). intros s' St Hc.
      stp St; rewrite ?app_nil_r, <- ?app_assoc; try done; match goal with H : l_resp _ = _ |- _ => rewrite H end; done.
    Qed.
    Local Lemma receives n : l_resp (x_at x n) ≠ [] → ∃ m a, (n ≤ m)%nat ∧ x_act x m = Some a ∧ takes_response a.2.
    Proof using All.
      intros H. destruct (strong_sel takes_response (λ s, l_resp s ≠ []) n (hf_resp x Hf) H) as (m&a&?&?&?&_); [| |by exists m, a].
      - intros s E Hq. destruct (l_resp s) as [|[k [r|]] q] eqn:Er; [done| |].
        + exists (0, HTakeResp k r 0 0). eexists. split; [done|]. by econstructor.
        + exists (0, HTakeNil k (the_order (l_hd s))). eexists. split; [done|]. econstructor; [done..|apply the_order_ok].
      - intros s [t a] s' Hs St. stp St; auto; right; by destruct (l_resp s).
    Qed.
    Local Lemma pushed_le n m : (n ≤ m)%nat → pushed (acts x n) `prefix_of` pushed (acts x m).
    Proof. intros H. destruct (acts_le x n m H) as (l&->). unfold pushed. rewrite omap_app. by eexists. Qed.
    Local Lemma received_le n m : (n ≤ m)%nat → received (acts x n) `prefix_of` received (acts x m).
    Proof. intros H. destruct (acts_le x n m H) as (l&->). unfold received. rewrite omap_app. by eexists. Qed.
    Lemma healthd_received n : ∃ m, (n ≤ m)%nat ∧ pushed (acts x n) `prefix_of` received (acts x m).
    Proof using All.
      assert (H : ∀ l, (l ≤ length (pushed (acts x n)))%nat → ∃ m, (n ≤ m)%nat ∧ (l ≤ length (received (acts x m)))%nat).
      { induction l as [|l IH]; [exists n; lia|]. intros Hl. destruct IH as (m&Hm&H1); [lia|].
        destruct (decide (S l ≤ length (received (acts x m)))%nat) as [|Hlt]; [by exists m|].
        pose proof (prefix_length _ _ (pushed_le n m Hm)) as H2. rewrite (resp_fifo m), app_length in H2.
        destruct (receives m) as (k&[t a]&Hk&Ha&Hp). { intros E2. rewrite E2 in H2. cbn in H2. lia. }
        exists (S k). split; [lia|]. rewrite acts_S, Ha. unfold received at 1. rewrite omap_app, app_length.
        pose proof (prefix_length _ _ (received_le m k Hk)). destruct a; try done; cbn; unfold received in *; lia. }
      destruct (H (length (pushed (acts x n)))) as (m&Hm&Hl); [done|]. exists m. split; [done|]. pose proof (pushed_le n m Hm) as H2.
      destruct (prefix_weak_total (pushed (acts x n)) (received (acts x m)) (pushed (acts x m)) H2) as [|H3]; [rewrite resp_fifo; by eexists|done|].
      destruct H3 as (k&Hk). rewrite Hk, app_length in Hl. destruct k; [|cbn in Hl; lia]. rewrite app_nil_r in Hk. by rewrite Hk.
    Qed.

    (** ** handlers *)
    Local Lemma short n : Z.of_nat (length (l_iq (x_at x n))) ≤ query_cap ∧ Z.of_nat (length (l_hq (x_at x n))) ≤ query_cap.
    Proof using All.
      induction n as [|n [IH1 IH2]]; [by rewrite (he_start _ _ Hx)|]. destruct (next _ x n (he_exec _ _ Hx)) as [[_ ->]|([t a]&_&St)]; [done|].
      revert St. generalize (x_at x (S n)). intros s' St. stp St; rewrite ?app_length; cbn; try done; try lia; match goal with H : _ = _ :: _ |- _ => rewrite H in * end; cbn in *; lia.
    Qed.
    Local Lemma takes_i n : l_iq (x_at x n) ≠ [] → ∃ m a, (n ≤ m)%nat ∧ x_act x m = Some a ∧ takes_intervals a.2.
    Proof using All.
      intros H. destruct (strong_sel takes_intervals (λ s, l_iq s ≠ []) n (hf_i x Hf) H) as (m&a&?&?&?&_); [| |by exists m, a].
      - intros s E Hq. destruct (l_iq s) as [|i q] eqn:Er; [done|]. exists (0, HTakeI i). eexists. split; [done|]. by econstructor.
      - intros s [t a] s' Hs St. stp St; auto; right; by destruct (l_iq s).
    Qed.
    Local Lemma takes_h n : l_hq (x_at x n) ≠ [] → ∃ m a, (n ≤ m)%nat ∧ x_act x m = Some a ∧ takes_hosts a.2.
    Proof using All.
      intros H. destruct (strong_sel takes_hosts (λ s, l_hq s ≠ []) n (hf_h x Hf) H) as (m&a&?&?&?&_); [| |by exists m, a].
      - intros s E Hq. destruct (l_hq s) as [|i q] eqn:Er; [done|]. exists (0, HTakeH i (map_to_list (hd_status (l_hd s)))). eexists. split; [done|]. by econstructor.
      - intros s [t a] s' Hs St. stp St; auto; right; by destruct (l_hq s).
    Qed.
    Local Lemma room_i n : ∃ m, (n ≤ m)%nat ∧ Z.of_nat (length (l_iq (x_at x m))) < query_cap.
    Proof using All.
      destruct (decide (Z.of_nat (length (l_iq (x_at x n))) < query_cap)) as [|Hfull]; [by exists n|].
      destruct (takes_i n) as (m&[t a]&Hm&Ha&Hp). { intros E. rewrite E in Hfull. unfold query_cap in Hfull. cbn in Hfull. lia. }
      exists (S m). split; [lia|]. pose proof (step_at m _ Ha) as St. pose proof (short m) as [Hs _]. destruct a; try done. cbn in *.
      inversion St; subst; cbn. match goal with H : l_iq _ = _ |- _ => rewrite H in Hs end. cbn in Hs. lia.
    Qed.
    Local Lemma room_h n : ∃ m, (n ≤ m)%nat ∧ Z.of_nat (length (l_hq (x_at x m))) < query_cap.
    Proof using All.
      destruct (decide (Z.of_nat (length (l_hq (x_at x n))) < query_cap)) as [|Hfull]; [by exists n|].
      destruct (takes_h n) as (m&[t a]&Hm&Ha&Hp). { intros E. rewrite E in Hfull. unfold query_cap in Hfull. cbn in Hfull. lia. }
      exists (S m). split; [lia|]. pose proof (step_at m _ Ha) as St. pose proof (short m) as [_ Hs]. destruct a; try done. cbn in *.
      inversion St; subst; cbn. match goal with H : l_hq _ = _ |- _ => rewrite H in Hs end. cbn in Hs. lia.
    Qed.
    Local Lemma queued_i i l1 : ∀ n l2, l_iq (x_at x n) = l1 ++ i :: l2 → ∃ m t a, (n ≤ m)%nat ∧ x_act x m = Some (t, HRet i a).
    Proof using All.
      induction l1 as [|j l1 IH]; intros n l2 E.
      - destruct (strong_sel takes_intervals (λ s, ∃ l2, l_iq s = i :: l2) n (hf_i x Hf)) as (m&[t a]&Hm&Ha&Hp&(l3&E3)).
        + eauto.
        + intros s El (l3&E3). exists (0, HTakeI i). eexists. split; [done|]. by econstructor.
        + intros s [t a] s' (l3&E3) St. stp St; auto; right; rewrite ?E3; cbn; eauto.
        + destruct a; try done. pose proof (step_at m _ Ha) as St. destruct (answered (S m) i) as (k&t'&a&Hk&Hr&_); [|exists k, t', a; split; [lia|done]].
          exists (safe_intervals (l_hd (x_at x m))). left. inversion St; subst. cbn. congruence.
      - destruct (strong_sel takes_intervals (λ s, ∃ l2, l_iq s = (j :: l1) ++ i :: l2) n (hf_i x Hf)) as (m&[t a]&Hm&Ha&Hp&(l3&E3)).
        + eauto.
        + intros s El (l3&E3). exists (0, HTakeI j). eexists. split; [done|]. by econstructor.
        + intros s [t a] s' (l3&E3) St. stp St; auto; right; rewrite ?E3; cbn; rewrite <- ?app_assoc; cbn; eauto.
        + destruct a; try done. pose proof (step_at m _ Ha) as St. destruct (IH (S m) l3) as (k&t'&a&Hk&Hr); [|exists k, t', a; split; [lia|done]].
          inversion St; subst. cbn in *. congruence.
    Qed.
    Local Lemma queued_h i l1 : ∀ n l2, l_hq (x_at x n) = l1 ++ i :: l2 → ∃ m t a, (n ≤ m)%nat ∧ x_act x m = Some (t, HRet i a).
    Proof using All.
      induction l1 as [|j l1 IH]; intros n l2 E.
      - destruct (strong_sel takes_hosts (λ s, ∃ l2, l_hq s = i :: l2) n (hf_h x Hf)) as (m&[t a]&Hm&Ha&Hp&(l3&E3)).
        + eauto.
        + intros s El (l3&E3). exists (0, HTakeH i (map_to_list (hd_status (l_hd s)))). eexists. split; [done|]. by econstructor.
        + intros s [t a] s' (l3&E3) St. stp St; auto; right; rewrite ?E3; cbn; eauto.
        + destruct a as [| | | | | | | | | | | |i' l| | | |]; try done. pose proof (step_at m _ Ha) as St. destruct (answered (S m) i) as (k&t'&a&Hk&Hr&_); [|exists k, t', a; split; [lia|done]].
          exists []. right. exists (safe_hosts l). inversion St; subst. cbn. congruence.
      - destruct (strong_sel takes_hosts (λ s, ∃ l2, l_hq s = (j :: l1) ++ i :: l2) n (hf_h x Hf)) as (m&[t a]&Hm&Ha&Hp&(l3&E3)).
        + eauto.
        + intros s El (l3&E3). exists (0, HTakeH j (map_to_list (hd_status (l_hd s)))). eexists. split; [done|]. by econstructor.
        + intros s [t a] s' (l3&E3) St. stp St; auto; right; rewrite ?E3; cbn; rewrite <- ?app_assoc; cbn; eauto.
        + destruct a; try done. pose proof (step_at m _ Ha) as St. destruct (IH (S m) l3) as (k&t'&a&Hk&Hr); [|exists k, t', a; split; [lia|done]].
          inversion St; subst. cbn in *. congruence.
    Qed.
    Lemma healthd_answers n t i q : x_act x n = Some (t, HCall i q) → ∃ m t' a, (n < m)%nat ∧ x_act x m = Some (t', HRet i a).
    Proof using All.
      intros Ha. pose proof (step_at n _ Ha) as St0. assert (Hin : (i, q) ∈ l_pass (x_at x (S n))) by (inversion St0; subst; cbn; left).
      destruct (strong (is_queue i) (λ s, (i, q) ∈ l_pass s) (S n) (hf_queue x Hf i) Hin) as (m&[t1 a]&Hm&Ha1&Hp&_).
      - intros k Hk. destruct q.
        + destruct (room_i k) as (m&Hm&Hr). exists m. split; [done|]. intros (p1&p2&Ep)%elem_of_list_split. exists (0, HQueue i QIntervals). eexists. split; [done|].
          econstructor; [apply (he_crash _ _ Hx)|exact Ep|exact Hr].
        + destruct (room_h k) as (m&Hm&Hr). exists m. split; [done|]. intros (p1&p2&Ep)%elem_of_list_split. exists (0, HQueue i QHosts). eexists. split; [done|].
          econstructor; [apply (he_crash _ _ Hx)|exact Ep|exact Hr].
      - intros s [t1 a] s' Hs St. destruct (decide (is_queue i a)) as [|Hne]; [by left|]. right.
        stp St; auto; [by right| |]; match goal with H : l_pass s = _ |- _ => rewrite H in Hs end;
          rewrite elem_of_app, elem_of_cons in Hs; rewrite elem_of_app; destruct Hs as [?|[?|?]]; auto; simplify_eq; by destruct Hne.
      - destruct a as [| | | | | | | | | |j q'| | | | | |]; try done. cbn in Hp. subst j. pose proof (step_at m _ Ha1) as St.
        assert (HS : (∃ l, l_iq (x_at x (S m)) = l ++ [i]) ∨ (∃ l, l_hq (x_at x (S m)) = l ++ [i])) by (inversion St; subst; cbn; eauto).
        destruct HS as [(l&E)|(l&E)]; [destruct (queued_i i l (S m) [] E) as (k&t'&a&?&?)|destruct (queued_h i l (S m) [] E) as (k&t'&a&?&?)]; exists k, t', a; (split; [lia|done]).
    Qed.

    (** ** a response is followed by a recalculation *)
    Lemma healthd_recalc n t k r t1 t2 : time_passes x → x_act x n = Some (t, HTakeResp k r t1 t2) → ∃ m t' o, (n < m)%nat ∧ x_act x m = Some (t', HFire o).
    Proof using All.
      intros [Hpos Htime] Ha.
      (* the trigger is taken *)
      assert (F1 : ∀ m o, l_deb (x_at x m) = DSnd o → ∃ j t' o', (m ≤ j)%nat ∧ x_act x j = Some (t', HFire o')).
      { intros m o E. destruct (strong_sel is_fire (λ s, l_deb s = DSnd o) m (hf_fire x Hf) E) as (j&[t' a]&Hj&Ha'&Hp&_).
        - intros s Es Ed. exists (0, HFire (the_order (l_hd s))). eexists. split; [done|]. econstructor; [done|rewrite Ed; constructor|apply the_order_ok].
        - intros s [t' a] s' Hs St. stp St; auto; rewrite Hs in *; match goal with H : dstep _ _ _ _ |- _ => inversion H end.
        - destruct a; try done. eauto. }
      assert (Hth : - 2 ^ 63 ≤ threshold < 2 ^ 63 - 1) by (unfold threshold; lia).
      assert (B : ∀ m o, o ≠ 0 → (∀ j t' a, (m ≤ j)%nat → x_act x j = Some (t', a) → o + threshold + 1 ≤ t') → l_deb (x_at x m) = DChk o →
        ∃ j t' o', (m ≤ j)%nat ∧ x_act x j = Some (t', HFire o')).
      { intros m o Ho Hlate E. destruct (weak is_deb (λ s, l_deb s = DChk o) m (hf_deb x Hf) E) as (j&[t' a]&Hj&Ha'&Hp&E').
        - intros s Hc Ed. exists (0, HDeb DCheck). eexists. split; [done|]. constructor; [done|]. rewrite Ed. constructor.
        - intros s [t' a] s' Hs St. stp St; auto; try (by left); rewrite Hs in *; match goal with H : dstep _ _ _ _ |- _ => inversion H end.
        - pose proof (Hlate j t' a Hj Ha') as Ht. pose proof (step_at j _ Ha') as St. destruct (F1 (S j) o) as (j'&t''&o'&?&?); [|exists j', t'', o'; split; [lia|done]].
          destruct a as [| | | | | |d| | | | | | | | | |]; try done. revert St. generalize (x_at x (S j)). intros s' St.
          stp St; rewrite E' in *; match goal with H : dstep _ _ _ _ |- _ => inversion H; subst end. unfold since_oldest. rewrite since_spec by done.
          destruct (Z.eqb_spec o 0); [done|]. destruct (Z.ltb_spec threshold (t' - o)); [done|lia]. }
      assert (C : ∀ m o, o ≠ 0 → (∀ j t' a, (m ≤ j)%nat → x_act x j = Some (t', a) → o + threshold + 1 ≤ t') → l_deb (x_at x m) = DTop o →
        ∃ j t' o', (m ≤ j)%nat ∧ x_act x j = Some (t', HFire o')).
      { intros m o Ho Hlate E. destruct (weak is_deb (λ s, l_deb s = DTop o ∧ 0 ≤ l_req s) m (hf_deb x Hf)) as (j&[t' a]&Hj&Ha'&Hp&E'&_).
        - split; [done|]. apply (req_bound _ _ _ (reach m)).
        - intros s Hc [Ed Hr]. destruct (decide (l_req s = 0)) as [Hz|Hz]; [exists (0, HDeb DIdle)|exists (0, HDeb DTake)]; eexists; (split; [done|]);
            constructor; try done; try lia; rewrite Ed; constructor.
        - intros s [t' a] s' [Hs Hr] St. stp St; auto; try (by left); try (right; split; [done|lia]); rewrite Hs in *; match goal with H : dstep _ _ _ _ |- _ => inversion H end.
        - pose proof (step_at j _ Ha') as St. destruct (B (S j) o Ho) as (j'&t''&o'&?&?); [| |exists j', t'', o'; split; [lia|done]].
          { intros ? ? ? ?. apply Hlate. lia. }
          destruct a as [| | | | | |d| | | | | | | | | |]; try done. revert St. generalize (x_at x (S j)). intros s' St.
          stp St; rewrite E' in *; match goal with H : dstep _ _ _ _ |- _ => inversion H; subst end; [|done]. destruct (Z.eqb_spec o 0); done. }
      set (armed o s := l_deb s = DTop o ∨ l_deb s = DChk o ∨ l_deb s = DSnd o).
      assert (D : ∀ m o, o ≠ 0 → armed o (x_at x m) → ∃ j t' o', (m ≤ j)%nat ∧ x_act x j = Some (t', HFire o')).
      { intros m o Ho Har. destruct (Htime (o + threshold + 1)) as (M&HM).
        destruct (until _ x (λ _, False) (is_act is_fire) (armed o) m (max m M) (he_exec _ _ Hx) (none_false x m) Har) as [(j&Hj&([t' a]&Ha'&Hp)&_)|H1].
        - intros s [t' a] s' Hs St. unfold armed in *. stp St; auto; try (by left); right; right;
            destruct Hs as [Hs|[Hs|Hs]]; rewrite Hs in *; match goal with H : dstep _ _ _ _ |- _ => inversion H; subst end; auto.
          + destruct (Z.eqb_spec o 0); [done|auto].
          + case_match; auto.
        - lia.
        - destruct a; try done. exists j, t', o0. split; [lia|done].
        - assert (Hlate : ∀ j t' a, (max m M ≤ j)%nat → x_act x j = Some (t', a) → o + threshold + 1 ≤ t') by (intros ? ? ? ?; apply HM; lia).
          destruct H1 as [H1|[H1|H1]]; [apply C in H1; [|done|done]|apply B in H1; [|done|done]|apply F1 in H1]; destruct H1 as (j&t'&o'&?&?); exists j, t', o'; (split; [lia|done]). }
      assert (E0 : ∀ m, l_deb (x_at x m) = DTop 0 → 1 ≤ l_req (x_at x m) → ∃ j t' o', (m ≤ j)%nat ∧ x_act x j = Some (t', HFire o')).
      { intros m E Hr. destruct (weak is_deb (λ s, l_deb s = DTop 0 ∧ 1 ≤ l_req s) m (hf_deb x Hf)) as (j&[t' a]&Hj&Ha'&Hp&E'&Hr').
        - done.
        - intros s Hc [Ed Hr']. exists (0, HDeb DTake); eexists; (split; [done|]). constructor; [done|lia|]. rewrite Ed; constructor.
        - intros s [t' a] s' [Hs Hr'] St. stp St; auto; try (by left); try (right; split; [done|lia]); rewrite Hs in *; match goal with H : dstep _ _ _ _ |- _ => inversion H end.
        - pose proof (step_at j _ Ha') as St. pose proof (Hpos _ _ _ Ha'). destruct (D (S j) t') as (j'&t''&o'&?&?); [lia| |exists j', t'', o'; split; [lia|done]].
          destruct a as [| | | | | |d| | | | | | | | | |]; try done. revert St. generalize (x_at x (S j)). intros s' St. unfold armed.
          stp St; rewrite E' in *; match goal with H : dstep _ _ _ _ |- _ => inversion H; subst end; [auto|lia]. }
      assert (E1 : ∀ m, 1 ≤ l_req (x_at x m) → ∃ j t' o', (m ≤ j)%nat ∧ x_act x j = Some (t', HFire o')).
      { intros m Hr. destruct (l_deb (x_at x m)) as [o|o|o] eqn:E; [| |by eapply F1].
        - destruct (decide (o = 0)) as [->|Ho]; [by apply E0|]. apply (D m o Ho). by left.
        - destruct (decide (o = 0)) as [->|Ho]; [|apply (D m o Ho); right; by left].
          destruct (weak is_deb (λ s, l_deb s = DChk 0 ∧ 1 ≤ l_req s) m (hf_deb x Hf)) as (j&[t' a]&Hj&Ha'&Hp&E'&Hr').
          + done.
          + intros s Hc [Ed Hr']. exists (0, HDeb DCheck); eexists; (split; [done|]). constructor; [done|]. rewrite Ed; constructor.
          + intros s [t' a] s' [Hs Hr'] St. stp St; auto; try (by left); try (right; split; [done|lia]); rewrite Hs in *; match goal with H : dstep _ _ _ _ |- _ => inversion H end.
          + pose proof (step_at j _ Ha') as St. destruct (E0 (S j)) as (j'&t''&o'&?&?); [| |exists j', t'', o'; split; [lia|done]];
              (destruct a as [| | | | | |d| | | | | | | | | |]; try done); revert St; generalize (x_at x (S j)); intros s' St;
              stp St; rewrite E' in *; match goal with H : dstep _ _ _ _ |- _ => inversion H; subst end; done. }
      pose proof (step_at n _ Ha) as St. assert (HA : l_loop (x_at x (S n)) = AReq).
      { pose proof (he_crash _ _ Hx (S n)) as Hc. revert St Hc. generalize (x_at x (S n)). intros s' St Hc. by stp St. }
      destruct (req_sent (S n) HA) as (m&t'&Hm&Hm'). pose proof (step_at m _ Hm') as St'. destruct (E1 (S m)) as (j&t''&o&?&?); [|exists j, t'', o; split; [lia|done]].
      pose proof (req_bound _ _ _ (reach m)) as [Hb _]. inversion St'; subst. cbn. lia.
    Qed.
  End Running.

  (** ** the first Stop *)
  Lemma healthd_stop n t i : x_act x n = Some (t, HStop i) → (∀ m, happens (is_act is_stop) x m → m = n) → ∃ m t', (n < m)%nat ∧ x_act x m = Some (t', HStopRet i).
  Proof using All.
    intros Ha Hu.
    set (J0 s := l_loop s ≠ ABye ∧ l_loop s ≠ AGone ∧ l_stop s = [] ∧ l_bye s = []).
    assert (H0 : ∀ k, (k ≤ n)%nat → J0 (x_at x k)).
    { induction k as [|k IH]; intros Hk; [by rewrite (he_start _ _ Hx)|]. specialize (IH ltac:(lia)). destruct (next _ x k (he_exec _ _ Hx)) as [[_ ->]|([t' a]&Hak&St)]; [done|].
      revert St. generalize (x_at x (S k)). intros s' St. destruct IH as (A1&A2&A3&A4). unfold J0. stp St; try done.
      - assert (k = n); [|lia]. apply Hu. by eexists.
      - rewrite A3 in *. set_solver. }
    set (J1 s := l_loop s ≠ ABye ∧ l_loop s ≠ AGone ∧ l_stop s = [i] ∧ l_bye s = []).
    assert (HN : none_from (is_act is_stop) x (S n)). { intros j Hj H. apply Hu in H. lia. }
    assert (H1 : J1 (x_at x (S n))).
    { pose proof (step_at n _ Ha) as St. destruct (H0 n ltac:(lia)) as (A1&A2&A3&A4). inversion St; subst. unfold J1. cbn. by rewrite A3. }
    destruct (strong_leads _ x (is_act is_stop) (is_act takes_stop) J1 (S n) (he_exec _ _ Hx) (hf_stop x Hf) HN H1) as (m&Hm&([t' a]&Ha'&Hp)&A1&A2&A3&A4).
    - intros k Hk (A1&A2&_). destruct (select_again k) as (m&Hm&E). { split; [done|]. split; [done|]. apply (he_crash _ _ Hx). }
      exists m. split; [done|]. intros (_&_&A3&_). exists (0, HStopTake i). eexists. split; [done|]. constructor; [done|]. rewrite A3. left.
    - intros s [t' a] s' (A1&A2&A3&A4) St. unfold J1. stp St; auto; try (by left); try (by right; left); right; right; split_and!; congruence.
    - destruct a as [| | | | | | | | | | | | | | |j|]; try done. pose proof (step_at m _ Ha') as St.
      assert (HS : l_loop (x_at x (S m)) = ABye ∧ l_bye (x_at x (S m)) = [i]).
      { inversion St; subst. cbn. rewrite A3, A4 in *. split; [done|]. f_equal. set_solver. }
      destruct (weak is_stop_ret (λ s, l_loop s = ABye ∧ l_bye s = [i]) (S m) (hf_stop_ret x Hf) HS) as (k&[t'' a]&Hk&Hk'&Hp'&B1&B2).
      + intros s _ [E1 E2]. exists (0, HStopRet i). eexists. split; [done|]. constructor; [done|]. rewrite E2. left.
      + intros s [t'' a] s' [E1 E2] St'. stp St'; auto; congruence.
      + exists k, t''. split; [lia|]. destruct a as [| | | | | | | | | | | | | | | |j']; try done. rewrite Hk'. do 3 f_equal. pose proof (step_at k _ Hk') as St'.
        inversion St'; subst. rewrite B2 in *. set_solver.
  Qed.
End Healthd.
