(** * The polling sink goes on (C109) *)
From Verif Require Import SLive PFair PPolling PProcess2.

Section Poll.
  Context (d retain : Z) (Hd : 0 < d) (Hr : d ≤ retain).
  Context (x : exec pst pact) (Hx : poll_exec d retain x) (Hf : poll_fair x).

  Local Lemma reach n : psteps (pst0 d retain) (acts x n) (x_at x n).
  Proof using Hx.
    destruct Hx as [He H0]. induction n as [|n IH]; [rewrite H0; constructor|]. rewrite acts_S.
    destruct (next pstep x n He) as [[-> ->]|(a&->&Hs)]; [by rewrite app_nil_r|].
    apply psteps_app. eexists. split; [exact IH|]. by apply psteps_one.
  Qed.
  Local Lemma alive n : p_alive (x_at x n).
  Proof using All. exact (poll_alive d retain _ _ Hd Hr (reach n)). Qed.

  Local Lemma can_take s c q : p_loop s = PRun → p_q s = c :: q → possible pstep is_take s.
  Proof.
    destruct s as [q0 l a wr wd wb]. cbn. intros -> ->. destruct (agg_step a 0 (OpCmd c)) as [[a' y]|why] eqn:E;
      exists (PTake 0 c); eexists; (split; [exact I|]); [eapply Ps_take|eapply Ps_take_crash]; exact E.
  Qed.
  Local Lemma can_read s i : p_loop s = PRun → i ∈ p_wr s → possible pstep (is_read_take i) s.
  Proof.
    destruct s as [q0 l a wr wd wb]. cbn. intros -> Hi. destruct (agg_step a 0 OpRead) as [[a' y]|why] eqn:E.
    - assert (∃ out, y = Some out) as (out&->).
      { cbn in E. destruct (memory_safe_intervals a 0) as [r|]; cbn in E; [|done]. injection E as <- <-. eauto. }
      exists (PReadTake i 0). eexists. split; [done|]. by eapply Ps_read_take.
    - exists (PReadTake i 0). eexists. split; [done|]. by eapply Ps_read_take_crash.
  Qed.

  (** the loop is at its select or answers a reader *)
  Local Definition ready (s : pst) : Prop := p_loop s = PRun ∨ ∃ i out, p_loop s = PReply i out.
  Local Lemma ready_at n : (∀ m, (m < n)%nat → ¬ happens is_shut_call x m) → ready (x_at x n) ∧ p_wd (x_at x n) = [] ∧ p_wb (x_at x n) = [].
  Proof using All.
    intros H. assert (Hn : no_shut (acts x n)).
    { apply Forall_forall. intros a (k&Hk&Ha)%acts_in. destruct a; try done. apply (H k Hk). by eexists. }
    destruct (no_shut_inv _ _ _ _ (reach n) Hn) as (E1&E2&E3&E4). split; [|done]. pose proof (alive n) as Ha. unfold p_alive in Ha. unfold ready.
    destruct (p_loop (x_at x n)); try done; [by left|right; eauto].
  Qed.
  Local Lemma reply_step s a s' i out : p_loop s = PReply i out → pstep s a s' → a = PReadRet i out ∨ p_loop s' = PReply i out.
  Proof. destruct s. cbn. intros -> H. inversion H; subst; cbn; auto. Qed.
  Local Lemma reply_returns n i out : p_loop (x_at x n) = PReply i out →
    ∃ m, (n ≤ m)%nat ∧ x_act x m = Some (PReadRet i out) ∧ p_loop (x_at x (S m)) = PRun.
  Proof using All.
    intros H. destruct (weak_leads pstep x (λ _, False) is_read_ret (λ s, p_loop s = PReply i out) n (proj1 Hx) (pf_read_ret x Hf)) as (m&Hm&(a&Ha&Hp)&Hl).
    - apply none_false.
    - done.
    - intros [q l a wr wd wb]. cbn. intros ->. exists (PReadRet i out). eexists. split; [done|constructor].
    - intros s a s' Hs Hst. destruct (reply_step s a s' i out Hs Hst) as [->|]; auto. left. done.
    - exists m. split; [done|]. destruct (next pstep x m (proj1 Hx)) as [[E _]|(b&E&Hst)]; [congruence|].
      assert (b = a) as -> by congruence. destruct (x_at x m) as [q l ag wr wd wb]. cbn in Hl. subst l.
      inversion Hst; subst; done.
  Qed.
  Local Lemma select_again n : ready (x_at x n) → ∃ m, (n ≤ m)%nat ∧ p_loop (x_at x m) = PRun.
  Proof using All.
    intros [H|(i&out&H)]; [by exists n|]. destruct (reply_returns n i out H) as (m&Hm&_&H1). exists (S m). split; [lia|done].
  Qed.

  (** ** while nobody shuts the sink down *)
  Section Running.
    Context (Hn : never is_shut_call x).
    Local Lemma select n : ∃ m, (n ≤ m)%nat ∧ p_loop (x_at x m) = PRun.
    Proof using All. apply select_again. apply ready_at. intros m _. apply Hn. Qed.

    Local Lemma takes n : p_q (x_at x n) ≠ [] → ∃ m, (n ≤ m)%nat ∧ happens is_take x m.
    Proof using All.
      intros H. destruct (strong_leads pstep x (λ _, False) is_take (λ s, p_q s ≠ []) n (proj1 Hx) (pf_take x Hf) (none_false x n) H) as (m&?&?&_); [| |by exists m].
      - intros k Hk _. destruct (select k) as (m&Hm&Hs). exists m. split; [done|]. intros Hq.
        destruct (p_q (x_at x m)) as [|c q] eqn:E; [done|]. by eapply can_take.
      - intros s a s' Hs Hst. destruct Hst; cbn in *; auto. right. right. by destruct (p_q s).
    Qed.
    Local Lemma processed_grows n m : (n ≤ m)%nat → poll_processed (acts x n) `prefix_of` poll_processed (acts x m).
    Proof. intros H. destruct (acts_le x n m H) as (l&->). unfold poll_processed. rewrite omap_app. by eexists. Qed.
    Local Lemma accepted_grows n m : (n ≤ m)%nat → poll_accepted (acts x n) `prefix_of` poll_accepted (acts x m).
    Proof. intros H. destruct (acts_le x n m H) as (l&->). unfold poll_accepted. rewrite omap_app. by eexists. Qed.

    Lemma poll_served n : ∃ m, (n ≤ m)%nat ∧ poll_accepted (acts x n) `prefix_of` poll_processed (acts x m).
    Proof using All.
      assert (H : ∀ l, (l ≤ length (poll_accepted (acts x n)))%nat → ∃ m, (n ≤ m)%nat ∧ (l ≤ length (poll_processed (acts x m)))%nat).
      { induction l as [|l IH]; [exists n; lia|]. intros Hl. destruct IH as (m&Hm&H1); [lia|].
        destruct (decide (S l ≤ length (poll_processed (acts x m)))%nat) as [|Hlt]; [by exists m|].
        destruct (poll_fifo _ _ _ _ (reach m)) as (E&_). pose proof (prefix_length _ _ (accepted_grows n m Hm)) as H2. rewrite E, app_length in H2.
        destruct (takes m) as (k&Hk&(a&Ha&Hp)). { intros E2. rewrite E2 in H2. cbn in H2. lia. }
        exists (S k). split; [lia|]. rewrite acts_S, Ha. unfold poll_processed at 1. rewrite omap_app, app_length.
        pose proof (prefix_length _ _ (processed_grows m k Hk)). destruct a; try done. cbn. unfold poll_processed in *. lia. }
      destruct (H (length (poll_accepted (acts x n)))) as (m&Hm&Hl); [done|]. exists m. split; [done|].
      destruct (poll_fifo _ _ _ _ (reach m)) as (E&_). pose proof (accepted_grows n m Hm) as H2.
      destruct (prefix_weak_total (poll_accepted (acts x n)) (poll_processed (acts x m)) (poll_accepted (acts x m)) H2) as [|H3]; [rewrite E; by eexists|done|].
      destruct H3 as (k&Hk). rewrite Hk, app_length in Hl. destruct k; [|cbn in Hl; lia]. rewrite app_nil_r in Hk. by rewrite Hk.
    Qed.
    Lemma poll_room n : ∃ m, (n ≤ m)%nat ∧ p_room (x_at x m).
    Proof using All.
      destruct (decide (Z.of_nat (length (p_q (x_at x n))) < poll_buff)) as [|Hfull]; [by exists n|].
      destruct (takes n) as (m&Hm&(a&Ha&Hp)). { intros E. rewrite E in Hfull. unfold poll_buff in Hfull. cbn in Hfull. lia. }
      exists (S m). split; [lia|]. destruct (poll_fifo _ _ _ _ (reach m)) as (_&Hl&_).
      destruct (next pstep x m (proj1 Hx)) as [[E _]|(b&E&Hst)]; [congruence|]. assert (b = a) as -> by congruence.
      unfold p_room, poll_buff. destruct a; try done. inversion Hst; subst; rewrite <- H in Hl; cbn in Hl |- *; lia.
    Qed.
    Lemma poll_answers n i : x_act x n = Some (PReadCall i) → ∃ m out, (n < m)%nat ∧ x_act x m = Some (PReadRet i out).
    Proof using All.
      intros Ha. assert (H1 : i ∈ p_wr (x_at x (S n))).
      { destruct (next pstep x n (proj1 Hx)) as [[E _]|(b&E&Hst)]; [congruence|]. assert (b = PReadCall i) as -> by congruence. inversion Hst; subst. cbn. set_solver. }
      destruct (strong_leads pstep x (λ _, False) (is_read_take i) (λ s, i ∈ p_wr s) (S n) (proj1 Hx) (pf_read x Hf i) (none_false x _) H1) as (m&Hm&(a&E&Hp)&_).
      - intros k Hk _. destruct (select k) as (m&Hm&Hs). exists m. split; [done|]. by apply can_read.
      - intros s a s' Hs Hst. destruct Hst; cbn in *; auto; try (right; right; set_solver);
          (destruct (decide (i0 = i)) as [->|]; [by left|right; right; unfold p_out; apply elem_of_list_In, in_in_remove; [done|by apply elem_of_list_In]]).
      - destruct a as [| |j t| | | | | |]; try done. cbn in Hp. subst j.
        destruct (next pstep x m (proj1 Hx)) as [[E' _]|(b&E'&Hst)]; [congruence|]. assert (b = PReadTake i t) as -> by congruence.
        pose proof (alive (S m)) as Hal. assert (∃ out, p_loop (x_at x (S m)) = PReply i out) as (out&Ho).
        { inversion Hst; subst; cbn; [eauto|]. unfold p_alive in Hal. by match goal with H : _ = x_at x (S m) |- _ => rewrite <- H in Hal end. }
        destruct (reply_returns (S m) i out Ho) as (k&Hk&H2&_). exists k, out. split; [lia|done].
    Qed.
  End Running.

  (** ** the first shutdown *)
  Lemma poll_shut n i : x_act x n = Some (PShutCall i) → (∀ m, happens is_shut_call x m → m = n) →
    ∃ m, (n < m)%nat ∧ x_act x m = Some (PShutRet i).
  Proof using All.
    intros Ha Hu. destruct (ready_at n) as (H1&H2&H3). { intros m Hm H. apply Hu in H. lia. }
    assert (HN : none_from is_shut_call x (S n)). { intros j Hj H. apply Hu in H. lia. }
    set (I s := ready s ∧ p_wd s = [i] ∧ p_wb s = []).
    assert (H4 : I (x_at x (S n))).
    { destruct (next pstep x n (proj1 Hx)) as [[E _]|(b&E&Hst)]; [congruence|]. assert (b = PShutCall i) as -> by congruence.
      inversion Hst; subst. unfold I, ready in *; cbn. split; [done|]. split; [congruence|done]. }
    assert (Hst0 : ∀ s a s', I s → pstep s a s' → (p_loop s' = PByeSend ∧ p_wb s' = [i] ∧ a = PShutTake i) ∨ is_shut_call a ∨ a ≠ PShutTake i ∧ (I s' ∨ p_loop s' = PCrashed)).
    { intros s a s' (A1&A2&A3) Hst. destruct Hst; unfold I, ready in *; cbn in *; simplify_eq; auto; try (right; right; split; [done|]; left; naive_solver);
        try (right; right; split; [done|]; by right). left. split; [done|]. split; [|f_equal]; set_solver. }
    assert (Hstep : ∀ k, (S n ≤ k)%nat → (∃ j, (S n ≤ j < k)%nat ∧ x_act x j = Some (PShutTake i) ∧ p_loop (x_at x (S j)) = PByeSend ∧ p_wb (x_at x (S j)) = [i]) ∨ I (x_at x k)).
    { induction 1 as [|k Hk IH]; [by right|]. destruct IH as [(j&?&?)|IH]; [left; exists j; split; [lia|done]|].
      destruct (next pstep x k (proj1 Hx)) as [[_ ->]|(a&E&Hst)]; [by right|].
      destruct (Hst0 _ _ _ IH Hst) as [(?&?&->)|[Hs|[_ [?|Hc]]]]; [left; exists k; split; [lia|done]| |by right|].
      - exfalso. apply (HN k Hk). by eexists.
      - by destruct (alive (S k)). }
    destruct (pf_shut x Hf (S n)) as (m&Hm&(a&E&Hp)).
    { intros k Hk. destruct (Hstep k Hk) as [(j&Hj&Hj2&_)|Hi].
      - exists k. split; [done|]. right. exists j. split; [lia|]. by eexists.
      - destruct (select_again k (proj1 Hi)) as (m&Hm&Hs). exists m. split; [done|]. destruct (Hstep m) as [(j&Hj&Hj2&_)|(I1&I2&I3)]; [lia| |].
        + right. exists j. split; [lia|]. by eexists.
        + left. exists (PShutTake i). destruct (x_at x m) as [q l ag wr wd wb]. cbn in *. subst. eexists. split; [done|]. constructor. set_solver. }
    assert (∃ j, (S n ≤ j)%nat ∧ p_loop (x_at x (S j)) = PByeSend ∧ p_wb (x_at x (S j)) = [i]) as (j&Hj&J1&J2).
    { destruct (Hstep m Hm) as [(j&Hj&_&?)|Hi]; [exists j; split; [lia|done]|].
      destruct (next pstep x m (proj1 Hx)) as [[E' _]|(b&E'&Hst)]; [congruence|]. assert (b = a) as -> by congruence.
      destruct (Hst0 _ _ _ Hi Hst) as [(?&?&->)|[Hs|[Hne _]]]; [by exists m| |].
      - exfalso. apply (HN m Hm). by eexists.
      - destruct a; try done. exfalso. apply Hne. f_equal. destruct Hi as (_&Hi&_). inversion Hst; subst.
        match goal with H : _ = x_at x m |- _ => rewrite <- H in Hi end. cbn in Hi. subst. set_solver. }
    destruct (weak_leads pstep x (λ _, False) is_shut_ret (λ s, p_loop s = PByeSend ∧ p_wb s = [i]) (S j) (proj1 Hx) (pf_shut_ret x Hf) (none_false x _)) as (k&Hk&(b&Hb&Hp')&Hl).
    - done.
    - intros [q l ag wr wd wb]. cbn. intros [-> ->]. exists (PShutRet i). eexists. split; [done|]. constructor. set_solver.
    - intros s b s' [A1 A2] Hst. destruct Hst; cbn in *; simplify_eq; auto.
    - exists k. split; [lia|]. destruct (next pstep x k (proj1 Hx)) as [[E' _]|(c&E'&Hst)]; [congruence|]. assert (c = b) as -> by congruence.
      destruct b; try done. rewrite E'. do 2 f_equal. destruct Hl as [_ Hl]. inversion Hst; subst.
      match goal with H : _ = x_at x k |- _ => rewrite <- H in Hl end. cbn in Hl. subst. set_solver.
  Qed.
End Poll.
