(** * The StatsD sink's flushes, and its goroutines after Stop (C132) *)
From Verif Require Import SLive11 PFair PStatsdLoop.

Section Ticker.
  Context (o : opts) (x : exec kst kact) (Hx : ticker_exec o x).
  Local Notation at_ n := (x_at x n).
  Lemma step_at n : match x_act x n with Some a => kstep o (at_ n) a (at_ (S n)) | None => at_ (S n) = at_ n end.
  Proof using Hx. apply Hx. Qed.
  Lemma view_exec : statsd_exec o (sink_view x).
  Proof using Hx.
    split; [|cbn; by rewrite (proj2 Hx)]. intros n. cbn [x_act x_at sink_view]. pose proof (step_at n) as St. destruct (x_act x n) as [a|]; [|by rewrite St].
    by destruct St.
  Qed.
  Lemma off_done n : k_on (at_ n) = false → l_loop (k_l (at_ n)) = LDone.
  Proof using Hx.
    induction n as [|n IH]; [by rewrite (proj2 Hx)|]. pose proof (step_at n) as St. destruct (x_act x n) as [a|]; [|by rewrite St].
    destruct St as [a l l' b g on Ha St|l b g|l on|l l' b on St|l b g Hl]; cbn in *; try done; intros E; by eapply ldone_stuck; [apply IH|].
  Qed.
  Lemma done_later n m : (n ≤ m)%nat → l_loop (k_l (at_ n)) = LDone → l_loop (k_l (at_ m)) = LDone.
  Proof using Hx.
    intros Hm E. induction Hm as [|m Hm IH]; [done|]. pose proof (step_at m) as St. destruct (x_act x m) as [a|]; [|by rewrite St].
    destruct St as [a l l' b g on Ha St|l b g|l on|l l' b on St|l b g Hl]; cbn in *; try done; by eapply ldone_stuck.
  Qed.
  Lemma off_later n m : (n ≤ m)%nat → k_on (at_ n) = false → k_on (at_ m) = false.
  Proof using Hx.
    intros Hm E. induction Hm as [|m Hm IH]; [done|]. pose proof (step_at m) as St. destruct (x_act x m) as [a|]; [|by rewrite St]. by destruct St.
  Qed.

  (** ** after the ticker was stopped *)
  Definition left_ (s : kst) : nat := ((if k_buf s then 2 else 0) + match k_go s with TkSend => 1 | TkRecv => 0 end)%nat.
  Lemma left_step n : k_on (at_ n) = false →
    (left_ (at_ (S n)) + match x_act x n with Some KRecv | Some KSend => 1 | _ => 0 end)%nat = left_ (at_ n).
  Proof using Hx.
    intros E. pose proof (step_at n) as St. destruct (x_act x n) as [a|]; [|rewrite St; lia]. destruct St as [a l l' b g on Ha St|l b g|l on|l l' b on St|l b g Hl]; unfold left_; cbn in *; try done; try destruct b; try destruct g; lia.
  Qed.
  Definition sends_left (s : kst) : nat := ((if k_buf s then 1 else 0) + match k_go s with TkSend => 1 | TkRecv => 0 end)%nat.
  Lemma flushes_bound n k : k_on (at_ n) = false → (flushes_from x n k ≤ sends_left (at_ n))%nat.
  Proof using Hx.
    revert n. induction k as [|k IH]; intros n E; [cbn; lia|]. cbn [flushes_from]. pose proof (IH (S n) (off_later n (S n) ltac:(lia) E)) as Hk.
    pose proof (step_at n) as St. destruct (x_act x n) as [a|]; [|rewrite St in Hk; lia].
    destruct St as [a l l' b g on Ha St|l b g|l on|l l' b on St|l b g Hl]; cbn in *; try done; unfold sends_left in *; cbn in *; try destruct b; try destruct g; lia.
  Qed.
  Lemma flushes_after_stop n k : k_on (at_ n) = false → (flushes_from x n k ≤ 2)%nat.
  Proof using Hx. intros E. pose proof (flushes_bound n k E). unfold sends_left in *. destruct (k_buf (at_ n)), (k_go (at_ n)); lia. Qed.

  Definition blocked (s : kst) : Prop := k_on s = false ∧ l_loop (k_l s) = LDone ∧ ((k_buf s = false ∧ k_go s = TkRecv) ∨ (k_go s = TkSend ∧ ¬ room (k_l s))).
  Lemma queue_grows l a l' : l_loop l = LDone → lstep o l a l' → (length (l_q l) ≤ length (l_q l'))%nat.
  Proof using. intros E St. destruct St; cbn in *; try done; rewrite ?app_length; lia. Qed.
  Lemma blocked_stays n : blocked (at_ n) → blocked (at_ (S n)).
  Proof using Hx.
    intros (E1&E2&E3). pose proof (step_at n) as St. assert (F1 := off_later n (S n) ltac:(lia) E1). assert (F2 := done_later n (S n) ltac:(lia) E2).
    split; [done|]. split; [done|]. destruct (x_act x n) as [a|]; [|by rewrite St].
    destruct St as [a l l' b g on Ha St|l b g|l on|l l' b on St|l b g Hl]; cbn in *; try done.
    - destruct E3 as [?|[? Hr]]; [by left|]. right. split; [done|]. pose proof (queue_grows _ _ _ E2 St). unfold room in *. lia.
    - by destruct E3 as [[? ?]|[? ?]].
    - destruct E3 as [[? ?]|[_ Hr]]; [done|]. inversion St; subst. done.
  Qed.
  Lemma blocked_for_ever n m : (n ≤ m)%nat → blocked (at_ n) → blocked (at_ m).
  Proof using Hx. intros Hm. induction Hm as [|m Hm IH]; [done|]. intros H. by apply blocked_stays, IH. Qed.
  Lemma blocked_no_step s : blocked s → ¬ possible (kstep o) by_flusher s.
  Proof using.
    intros (_&_&H) (a&s'&[-> | ->]&St); inversion St; subst; cbn in *.
    - by destruct H as [[? ?]|[? ?]].
    - match goal with H' : lstep o _ ATick _ |- _ => inversion H'; subst end. by destruct H as [[? ?]|[? ?]].
  Qed.

  Context (Hf : ticker_fair o x).
  Lemma waits_for_ever n : l_loop (k_l (at_ n)) = LDone → ∃ m, (n ≤ m)%nat ∧ ∀ j, (m ≤ j)%nat → ¬ possible (kstep o) by_flusher (at_ j).
  Proof using Hx Hf.
    intros E.
    assert (Hoff : ∃ m, (n ≤ m)%nat ∧ k_on (at_ m) = false).
    { destruct (tf_off o x Hf n) as (m&Hm&[(a&Ha&->)|Hn]).
      - exists (S m). split; [lia|]. pose proof (step_at m) as St. rewrite Ha in St. by inversion St.
      - exists m. split; [done|]. pose proof (done_later n m Hm E) as El. destruct (at_ m) as [l b g [|]]; [|done]. destruct Hn. eexists. eexists. split; [done|]. by constructor. }
    destruct Hoff as (m0&Hm0&Eoff).
    assert (Hb : ∀ k m, (left_ (at_ m) ≤ k)%nat → (m0 ≤ m)%nat → ∃ m', (m ≤ m')%nat ∧ blocked (at_ m')).
    { induction k as [|k IH]; intros m Hk Hm.
      - exists m. split; [done|]. split; [by apply (off_later m0)|]. split; [apply (done_later n); [lia|done]|]. left. unfold left_ in Hk. destruct (k_buf (at_ m)), (k_go (at_ m)); try lia. done.
      - pose proof (off_later m0 m Hm Eoff) as Eo. pose proof (done_later n m ltac:(lia) E) as Ed.
        assert (Hless : ∀ j, (m ≤ j)%nat → happens by_flusher x j → ∃ m', (m ≤ m')%nat ∧ blocked (at_ m')).
        { intros j Hj (a&Ha&Hby). assert (Hj' : (left_ (at_ (S j)) ≤ k)%nat).
          { assert (Hle : ∀ i, (m ≤ i)%nat → (left_ (at_ i) ≤ S k)%nat).
            { intros i Hi. induction Hi as [|i Hi IHi]; [done|]. pose proof (left_step i (off_later m0 i ltac:(lia) Eoff)). lia. }
            pose proof (left_step j (off_later m0 j ltac:(lia) Eoff)) as Hs. specialize (Hle j Hj). rewrite Ha in Hs. destruct Hby as [-> | ->]; lia. }
          destruct (IH (S j) Hj' ltac:(lia)) as (m'&Hm'&Hb). exists m'. split; [lia|done]. }
        destruct (k_go (at_ m)) eqn:Eg.
        + destruct (k_buf (at_ m)) eqn:Eb.
          * destruct (tf_recv o x Hf m) as (j&Hj&[(a&Ha&->)|Hn]); [apply (Hless j Hj); exists KRecv; split; [done|by left]|].
            destruct (until _ x (λ _, False) by_flusher (λ s, k_go s = TkRecv ∧ k_buf s = true) m j (proj1 Hx) (none_false x m) (conj Eg Eb)) as [(i&Hi&Hh&_)|[Hg Hbf]]; [|done| |].
            { intros s a s' [H1 H2] St. destruct St; cbn in *; try done; auto. left. by left. }
            { apply (Hless i ltac:(lia) Hh). }
            destruct Hn. destruct (at_ j) as [l b g on]. cbn in *. subst. eexists. eexists. split; [done|]. constructor.
          * exists m. split; [done|]. split; [done|]. split; [done|]. by left.
        + destruct (decide (room (k_l (at_ m)))) as [Hr|Hr]; [|exists m; split; [done|]; split; [done|]; split; [done|]; by right].
          destruct (tf_send_weak o x Hf m) as (j&Hj&[(a&Ha&->)|Hn]); [apply (Hless j Hj); exists KSend; split; [done|by right]|].
          destruct (until _ x (λ _, False) by_flusher (λ s, k_go s = TkSend) m j (proj1 Hx) (none_false x m) Eg) as [(i&Hi&Hh&_)|Hg]; [|done| |].
          { intros s a s' H1 St. destruct St; cbn in *; try done; auto. left. by right. }
          { apply (Hless i ltac:(lia) Hh). }
          exists j. split; [lia|]. split; [by apply (off_later m0 j); [lia|]|]. split; [apply (done_later n j); [lia|done]|]. right. split; [done|]. intros Hr'. apply Hn.
          destruct (at_ j) as [l b g on]. cbn in *. subst. eexists. eexists. split; [done|]. constructor. by constructor. }
    destruct (Hb _ m0 (Nat.le_refl _) (Nat.le_refl _)) as (m&Hm&Hbl). exists m. split; [lia|]. intros j Hj. apply blocked_no_step. by apply (blocked_for_ever m).
  Qed.

  (** ** the sink of MStatsdLoop.v *)
  Lemma gets_to_send n : ∃ m, (n ≤ m)%nat ∧ (k_go (at_ m) = TkSend ∨ k_on (at_ m) = false).
  Proof using Hx Hf.
    destruct (tf_fire o x Hf n) as (m&Hm&[(a&Ha&->)|Hn]).
    - pose proof (step_at m) as St. rewrite Ha in St. inversion St as [|l b g E1 E2 E3| | |]; subst. symmetry in E3.
      destruct g; [|exists (S m); split; [lia|]; left; by rewrite E3].
      destruct (weak_leads _ x (λ _, False) (λ a, a = KRecv) (λ s, k_go s = TkRecv ∧ k_buf s = true) (S m) (proj1 Hx) (tf_recv o x Hf) (none_false x _)) as (j&Hj&(a&Hj2&->)&_).
      + by rewrite E3.
      + intros [l' b' g' on'] [H1 H2]. cbn in *. subst. eexists. eexists. split; [done|]. constructor.
      + intros s a s' [H1 H2] St'. destruct St'; cbn in *; try done; auto.
      + exists (S j). split; [lia|]. left. pose proof (step_at j) as St'. rewrite Hj2 in St'. by inversion St'.
    - exists m. split; [done|]. right. destruct (at_ m) as [l b g [|]]; [|done]. destruct Hn. eexists. eexists. split; [done|]. constructor.
  Qed.
  Lemma view_happens n (P : sact → Prop) : happens P (sink_view x) n ↔ happens (λ a, ∃ b, sink_act a = Some b ∧ P b) x n.
  Proof using.
    unfold happens. cbn [x_act sink_view]. split.
    - intros (a&Ha&Hp). destruct (x_act x n) as [k|]; [|done]. exists k. split; [done|]. by exists a.
    - intros (k&->&b&Hb&Hp). by exists b.
  Qed.
  Lemma view_fair : statsd_fair o (sink_view x).
  Proof using Hx Hf.
    constructor.
    - intros n. destruct (tf_loop o x Hf n) as (m&Hm&[Hh|Hn]); exists m; (split; [done|]).
      + left. apply view_happens. destruct Hh as (a&Ha&b&->&Hi). exists (KSink b). split; [done|]. by exists b.
      + right. intros (a&l'&Hi&St). apply Hn. cbn [x_at sink_view] in St. destruct (at_ m) as [l b g on]. cbn in St. exists (KSink a). eexists. split; [by exists a|]. constructor; [by intros ->|done].
    - intros n H. destruct (gets_to_send n) as (n1&Hn1&Hgo).
      assert (Hdec : ∀ j, happens is_tick (sink_view x) j ∨ ¬ happens is_tick (sink_view x) j).
      { intros j. destruct (x_act x j) as [[a| | | |]|] eqn:Ea.
        - pose proof (step_at j) as St. rewrite Ea in St. right. intros (b&Hb&->). cbn in Hb. rewrite Ea in Hb. injection Hb as ->. by inversion St.
        - right. intros (b&Hb&->). cbn in Hb. by rewrite Ea in Hb.
        - right. intros (b&Hb&->). cbn in Hb. by rewrite Ea in Hb.
        - left. exists ATick. split; [|done]. cbn. by rewrite Ea.
        - right. intros (b&Hb&->). cbn in Hb. by rewrite Ea in Hb.
        - right. intros (b&Hb&->). cbn in Hb. by rewrite Ea in Hb. }
      assert (Hbefore : (∃ j, (n ≤ j)%nat ∧ happens is_tick (sink_view x) j) ∨ ∀ j, (n ≤ j < n1)%nat → ¬ happens is_tick (sink_view x) j).
      { clear -Hdec Hn1. induction Hn1 as [|m Hm IH]; [right; intros; lia|]. destruct IH as [?|IH]; [by left|]. destruct (Hdec m) as [Hh|Hh]; [left; by exists m|].
        right. intros j Hj. destruct (decide (j = m)) as [->|]; [done|]. apply IH. lia. }
      destruct Hbefore as [?|Hbefore]; [done|]. destruct Hgo as [Hgo|Hoff].
      + destruct (tf_send o x Hf n1) as (m&Hm&Hh).
        * intros k Hk. destruct (H k ltac:(lia)) as (m&Hm&[Hp|(j&Hj&Hh)]); exists m; (split; [done|]).
          -- destruct (until _ x (λ _, False) (λ a, a = KSend) (λ s, k_go s = TkSend) n1 m (proj1 Hx) (none_false x _) Hgo) as [(i&Hi&Hh&_)|Hg]; [|lia| |].
             { intros s a s' Hg St. destruct St; cbn in *; try done; auto. }
             { right. exists i. split; [lia|done]. }
             left. destruct Hp as (a&l'&->&_&St). cbn [x_at sink_view] in St. destruct (at_ m) as [l b g on]. cbn in *. subst. exists KSend. eexists. split; [done|]. by constructor.
          -- right. exists j. split; [destruct (decide (n1 ≤ j)%nat); [lia|]; destruct (Hbefore j ltac:(lia) Hh)|]. apply view_happens in Hh as (a&Ha&b&Hb&->). exists a. split; [done|].
             destruct a; try done. injection Hb as ->. pose proof (step_at j) as St. rewrite Ha in St. by inversion St.
        * exists m. split; [lia|]. apply view_happens. destruct Hh as (a&Ha&->). exists KSend. split; [done|]. by exists ATick.
      + destruct (H n1 Hn1) as (m&Hm&[Hp|(j&Hj&Hh)]); [|by exists j; split; [lia|]].
        destruct Hp as (a&l'&_&Hl&_). destruct Hl. cbn. apply (done_later n1 m Hm). by apply off_done.
  Qed.
End Ticker.
