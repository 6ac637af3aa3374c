(** * The Librato sink goes on (C111) *)
From Verif Require Import SLive PFair PLibrato2.
From Verif Require Import SLibrato.

Section Librato.
  Context (c : lconf) (x : exec lgo lact) (Hx : librato_exec c x) (Hf : librato_fair c x).

  Local Lemma gone a g g' : gosteps c g [a] g' ↔ gostep c g a g'.
  Proof.
    split; [|intros; econstructor; [done|constructor]]. intros H. inversion H as [|? ? m ? ? H1 H2]; subst. by inversion H2; subst.
  Qed.
  Local Lemma reach n : gosteps c lgo0 (acts x n) (x_at x n).
  Proof using Hx.
    destruct Hx as [He H0]. induction n as [|n IH]; [rewrite H0; constructor|]. rewrite acts_S.
    destruct (next _ x n He) as [[-> ->]|(a&->&Hs)]; [by rewrite app_nil_r|]. eapply gosteps_app; [exact IH|]. by apply gone.
  Qed.
  Local Lemma step_at n a : x_act x n = Some a → gostep c (x_at x n) a (x_at x (S n)).
  Proof using Hx. intros H. destruct (next _ x n (proj1 Hx)) as [[E _]|(b&E&Hst)]; congruence. Qed.
  Local Lemma ops_app tr1 : ∀ g tr2 g1 g', gosteps c g tr1 g1 → gosteps c g1 tr2 g' → loop_ops (go_q g) (tr1 ++ tr2) = loop_ops (go_q g) tr1 ++ loop_ops (go_q g1) tr2.
  Proof.
    induction tr1 as [|a tr1 IH]; intros g tr2 g1 g' H1 H2; inversion H1 as [|? ? m ? ? Hs Hss]; subst; [done|].
    destruct Hs; cbn in *; try f_equal; exact (IH _ _ _ _ Hss H2).
  Qed.
  Local Lemma emitted_app a b : emitted (a ++ b) = emitted a ++ emitted b.
  Proof. induction a as [|[] a IH]; cbn; rewrite ?IH; done. Qed.
  Local Lemma emitted_le n m : (n ≤ m)%nat → emitted (acts x n) `prefix_of` emitted (acts x m).
  Proof. intros H. destruct (acts_le x n m H) as (l&->). rewrite emitted_app. by eexists. Qed.
  Local Lemma ops_le n m : (n ≤ m)%nat → loop_ops [] (acts x n) `prefix_of` loop_ops [] (acts x m).
  Proof using Hx.
    intros H. destruct (acts_le x n m H) as (l&E). pose proof (reach m) as Hm. rewrite E in Hm. apply gosteps_app_inv in Hm as (g2&H1&H2).
    rewrite E. pose proof (ops_app _ lgo0 _ _ _ H1 H2) as Ho. cbn [go_q lgo0] in Ho. rewrite Ho. by eexists.
  Qed.
  Local Lemma cmds_app a b : cmds_of (a ++ b) = cmds_of a ++ cmds_of b.
  Proof. unfold cmds_of. by rewrite map_app, concat_app. Qed.

  Section Running.
    Context (Hn : never is_gstop x).
    Local Lemma running n : go_phase (x_at x n) = LbRun.
    Proof using Hx Hn.
      apply (always _ x is_gstop (λ s, go_phase s = LbRun) 0 (proj1 Hx) Hn); [by rewrite (proj2 Hx)| |lia].
      intros s a s' H1 H2 H3. by destruct H3; cbn in *.
    Qed.
    Local Lemma takes n : go_q (x_at x n) ≠ [] → ∃ m, (n ≤ m)%nat ∧ happens is_gtake x m ∧ go_q (x_at x m) ≠ [].
    Proof using All.
      intros H. destruct (weak_leads _ x is_gstop is_gtake (λ s, go_phase s = LbRun ∧ go_q s ≠ []) n (proj1 Hx) (gf_take c x Hf) (never_none _ _ _ Hn)) as (m&H1&H2&_&H3).
      - split; [apply running|done].
      - intros [[|[job e] q] ph s w] [? ?]; cbn in *; [done|subst]. exists GTake. eexists. split; [done|constructor].
      - intros s a s' [H1 H2] St. destruct St; cbn in *; simplify_eq; auto; try (by left). right. right. split; [done|]. by destruct q.
      - by exists m.
    Qed.
    Lemma librato_taken n : ∃ m, (n ≤ m)%nat ∧ emitted (acts x n) `prefix_of` cmds_of (loop_ops [] (acts x m)).
    Proof using All.
      assert (H : ∀ l, (l ≤ length (emitted (acts x n)))%nat → ∃ m, (n ≤ m)%nat ∧ (l ≤ length (cmds_of (loop_ops [] (acts x m))))%nat).
      { induction l as [|l IH]; [exists n; lia|]. intros Hl. destruct IH as (m&Hm&H1); [lia|].
        destruct (decide (S l ≤ length (cmds_of (loop_ops [] (acts x m))))%nat) as [|Hlt]; [by exists m|].
        destruct (thm_go _ _ _ (reach m)) as (_&E). pose proof (prefix_length _ _ (emitted_le n m Hm)) as H2. rewrite E, app_length in H2.
        destruct (takes m) as (k&Hk&(a&Ha&->)&Hq). { intros E2. rewrite E2 in H2. cbn in H2. lia. }
        exists (S k). split; [lia|]. destruct (ops_le m k Hk) as (r&Hr). pose proof (step_at k _ Ha) as St.
        rewrite acts_S, Ha. pose proof (ops_app _ lgo0 _ _ _ (reach k) (proj2 (gone _ _ _) St)) as Ho. cbn [go_q lgo0] in Ho. rewrite Ho, Hr, !cmds_app, !app_length.
        destruct (go_q (x_at x k)) as [|[job e] q]; [done|]. cbn. lia. }
      destruct (H (length (emitted (acts x n)))) as (m&Hm&Hl); [done|]. exists m. split; [done|].
      destruct (thm_go _ _ _ (reach m)) as (_&E). pose proof (emitted_le n m Hm) as H2.
      destruct (prefix_weak_total (emitted (acts x n)) (cmds_of (loop_ops [] (acts x m))) (emitted (acts x m)) H2) as [|H3]; [rewrite E; by eexists|done|].
      destruct H3 as (k&Hk). rewrite Hk, app_length in Hl. destruct k; [|cbn in Hl; lia]. rewrite app_nil_r in Hk. by rewrite Hk.
    Qed.
    (** there is room for another emission again and again *)
    Lemma librato_room n : ∃ m, (n ≤ m)%nat ∧ Z.of_nat (length (go_q (x_at x m))) < lib_buff.
    Proof using All.
      assert (B : ∀ k, Z.of_nat (length (go_q (x_at x k))) ≤ lib_buff).
      { induction k as [|k IH]; [by rewrite (proj2 Hx)|]. destruct (next _ x k (proj1 Hx)) as [[_ ->]|(a&_&St)]; [done|].
        revert IH. destruct St; cbn; rewrite ?app_length; cbn; lia. }
      destruct (go_q (x_at x n)) as [|y q] eqn:E; [exists n; by rewrite E|]. destruct (takes n) as (m&Hm&(a&Ha&->)&_); [by rewrite E|].
      exists (S m). split; [lia|]. apply step_at in Ha. specialize (B m). revert B. inversion Ha; subst; cbn. lia.
    Qed.
    Lemma librato_flushed n : ∃ m now ok ops, (n ≤ m)%nat ∧ loop_ops [] (acts x m) = ops ++ [LFlush now ok] ∧ emitted (acts x n) `prefix_of` cmds_of ops.
    Proof using All.
      destruct (librato_taken n) as (m&Hm&Hp). destruct (weak_leads _ x is_gstop is_gtick (λ s, go_phase s = LbRun) m (proj1 Hx) (gf_tick c x Hf) (never_none _ _ _ Hn)) as (k&H1&(a&Ha&Ht)&_).
      - apply running.
      - intros [q ph s w]; cbn. intros ->. exists (GTick 0 true). eexists. split; [done|constructor].
      - intros s a s' Hs St. destruct St; cbn in *; simplify_eq; auto.
      - destruct a as [| |now ok| |]; try done. exists (S k), now, ok, (loop_ops [] (acts x k)). split; [lia|].
        pose proof (step_at k _ Ha) as St. split.
        + rewrite acts_S, Ha. exact (ops_app _ lgo0 _ _ _ (reach k) (proj2 (gone _ _ _) St)).
        + etrans; [exact Hp|]. destruct (ops_le m k H1) as (r&->). rewrite cmds_app. by eexists.
    Qed.
  End Running.
  Lemma librato_stop n i : x_act x n = Some (GStop i) → ∃ m, (n < m)%nat ∧ x_act x m = Some (GStopped i).
  Proof using All.
    intros Ha.
    assert (Hrun : ∀ k, go_phase (x_at x k) = LbRun → go_wait (x_at x k) = []).
    { induction k as [|k IH]; [by rewrite (proj2 Hx)|]. destruct (next _ x k (proj1 Hx)) as [[_ ->]|(a&_&St)]; [done|].
      revert IH. destruct St; cbn; auto; done. }
    assert (H1 : go_phase (x_at x (S n)) = LbAck ∧ go_wait (x_at x (S n)) = [i]).
    { pose proof (step_at n _ Ha) as St. pose proof (Hrun n) as Hr. inversion St; subst. match goal with H : _ = x_at x n |- _ => rewrite <- H in Hr end. cbn in *. by rewrite Hr. }
    destruct (weak_leads _ x (λ _, False) is_gstopped (λ s, go_phase s = LbAck ∧ go_wait s = [i]) (S n) (proj1 Hx) (gf_stopped c x Hf) (none_false x _)) as (m&H2&(a&Hb&Ht)&_&H3).
    - done.
    - intros [q ph s w]; cbn. intros [-> ->]. exists (GStopped i). eexists. split; [done|]. constructor. left.
    - intros s a s' Hs St. destruct St; cbn in *; auto; naive_solver.
    - exists m. split; [lia|]. destruct a as [| | | |j]; try done. rewrite Hb. do 2 f_equal. pose proof (step_at m _ Hb) as St.
      inversion St; subst. match goal with H : _ = x_at x m |- _ => rewrite <- H in H3 end. cbn in H3. subst. set_solver.
  Qed.
End Librato.
