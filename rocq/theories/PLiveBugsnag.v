(** * The Bugsnag sink goes on (C112) *)
From Verif Require Import SLive PFair PStack.
From Verif Require Import MBugsnag.

Section Bugsnag.
  Context (x : exec bq bact) (Hx : bugsnag_exec x) (Hf : bugsnag_fair x) (Hn : never (λ a, a = BShutdown) x).

  Local Lemma breach n : bsteps bq0 (acts x n) (x_at x n).
  Proof using Hx.
    assert (Happ : ∀ tr1 s tr2 m s', bsteps s tr1 m → bsteps m tr2 s' → bsteps s (tr1 ++ tr2) s').
    { induction tr1 as [|a tr1 IH]; intros s tr2 m s' H1 H2; inversion H1; subst; [done|]. cbn. econstructor; [done|]. by eapply IH. }
    destruct Hx as [He H0]. induction n as [|n IH]; [rewrite H0; constructor|]. rewrite acts_S.
    destruct (next _ x n He) as [[-> ->]|(a&->&Hs)]; [by rewrite app_nil_r|]. eapply Happ; [exact IH|]. econstructor; [exact Hs|constructor].
  Qed.
  Local Lemma brunning n : q_done (x_at x n) = false.
  Proof using Hx Hn.
    apply (always _ x _ (λ s, q_done s = false) 0 (proj1 Hx) Hn); [by rewrite (proj2 Hx)| |lia].
    intros s a s' H1 H2 H3. by destruct H3; cbn in *.
  Qed.
  Local Lemma enq_le n m : (n ≤ m)%nat → enqueued (acts x n) `prefix_of` enqueued (acts x m).
  Proof. intros H. destruct (acts_le x n m H) as (l&->). unfold enqueued. rewrite omap_app. by eexists. Qed.
  Local Lemma sent_le n m : (n ≤ m)%nat → (length (q_sent (x_at x n)) ≤ length (q_sent (x_at x m)))%nat.
  Proof using Hx.
    induction 1 as [|m _ IH]; [done|]. destruct (next _ x m (proj1 Hx)) as [[_ ->]|(a&_&St)]; [done|]. destruct St; cbn in *; rewrite ?app_length; cbn; lia.
  Qed.
  (** there is room for another error again and again *)
  Lemma bugsnag_room n : ∃ m, (n ≤ m)%nat ∧ (length (q_chan (x_at x m)) < bugsnag_chan_size)%nat.
  Proof using All.
    assert (B : ∀ k, (length (q_chan (x_at x k)) ≤ bugsnag_chan_size)%nat).
    { induction k as [|k IH]; [rewrite (proj2 Hx); cbn; lia|]. destruct (next _ x k (proj1 Hx)) as [[_ ->]|(a&_&St)]; [done|].
      revert IH. destruct St; cbn [q_chan]; rewrite ?app_length; cbn [length]; lia. }
    destruct (decide (q_chan (x_at x n) = [])) as [E|E]; [exists n; rewrite E; split; [lia|unfold bugsnag_chan_size; cbn; lia]|].
    destruct (weak_leads _ x (λ a, a = BShutdown) (λ a, a = BNotify) (λ s, q_done s = false ∧ q_chan s ≠ []) n (proj1 Hx) Hf (never_none _ _ _ Hn)) as (m&Hm&(a&Ha&->)&_).
    - split; [apply brunning|done].
    - intros [[|c q] sent d] [? ?]; cbn in *; [done|subst]. exists BNotify. eexists. split; [done|constructor].
    - intros s a s' [A1 A2] St. destruct St; cbn in *; auto. right. right. split; [done|]. by destruct (q_chan s).
    - exists (S m). split; [lia|]. specialize (B m). destruct (next _ x m (proj1 Hx)) as [[E' _]|(b&E'&St)]; [congruence|]. rewrite Ha in E'. injection E' as <-.
      revert B. inversion St; subst; cbn [q_chan length]. lia.
  Qed.
  Lemma bugsnag_sent n : ∃ m, (n ≤ m)%nat ∧ enqueued (acts x n) `prefix_of` q_sent (x_at x m).
  Proof using All.
    assert (H : ∀ l, (l ≤ length (enqueued (acts x n)))%nat → ∃ m, (n ≤ m)%nat ∧ (l ≤ length (q_sent (x_at x m)))%nat).
    { induction l as [|l IH]; [exists n; lia|]. intros Hl. destruct IH as (m&Hm&H1); [lia|].
      destruct (decide (S l ≤ length (q_sent (x_at x m)))%nat) as [|Hlt]; [by exists m|].
      pose proof (bsteps_inv _ _ (breach m)) as E. pose proof (prefix_length _ _ (enq_le n m Hm)) as H2. rewrite <- E, app_length in H2.
      destruct (weak_leads _ x (λ a, a = BShutdown) (λ a, a = BNotify) (λ s, q_done s = false ∧ q_chan s ≠ []) m (proj1 Hx) Hf (never_none _ _ _ Hn)) as (k&Hk&(a&Ha&->)&H3&H4).
      - split; [apply brunning|]. intros E2. rewrite E2 in H2. cbn in H2. lia.
      - intros [[|b q] se dn] [? ?]; cbn in *; [done|subst]. exists BNotify. eexists. split; [done|constructor].
      - intros s a s' [A1 A2] St. destruct St; cbn in *; auto. right. right. split; [done|]. by destruct (q_chan s).
      - exists (S k). split; [lia|]. pose proof (sent_le m k Hk). destruct (next _ x k (proj1 Hx)) as [[E' _]|(b&E'&St)]; [congruence|]. assert (b = BNotify) as -> by congruence.
        inversion St; subst. match goal with H : _ = x_at x k |- _ => rewrite <- H in * end. cbn in *. rewrite app_length. cbn. lia. }
    destruct (H (length (enqueued (acts x n)))) as (m&Hm&Hl); [done|]. exists m. split; [done|].
    pose proof (bsteps_inv _ _ (breach m)) as E. pose proof (enq_le n m Hm) as H2.
    destruct (prefix_weak_total (enqueued (acts x n)) (q_sent (x_at x m)) (enqueued (acts x m)) H2) as [|H3]; [rewrite <- E; by eexists|done|].
    destruct H3 as (k&Hk). rewrite Hk, app_length in Hl. destruct k; [|cbn in Hl; lia]. rewrite app_nil_r in Hk. by rewrite Hk.
  Qed.
End Bugsnag.
