(** * healthtop goes on (C126) *)
From Verif Require Import PFair PTopLoop SLive7.

Section Top.
  Context {A : Type} (x : exec (tloop A) (tlev A)).
  Context (Hx : is_exec tlstep x) (H0 : x_at x 0%nat = tloop0).

  Lemma top_reach n : tl_run tloop0 (acts x n) = Some (x_at x n).
  Proof using Hx H0.
    induction n as [|n IH]; [by rewrite H0|]. rewrite acts_S. destruct (next _ x n Hx) as [[-> ->]|(a&->&St)]; [by rewrite app_nil_r|].
    apply tl_run_snoc. by exists (x_at x n).
  Qed.
  Lemma tl_polls_length n : length (tl_polls (x_at x n)) = polls_before x n.
  Proof using Hx H0.
    unfold polls_before. induction n as [|n IH]; [by rewrite H0|]. rewrite acts_S. destruct (next _ x n Hx) as [[-> ->]|(a&->&St)]; [by rewrite app_nil_r|].
    rewrite started_snoc, <- IH. revert St. generalize (x_at x (S n)). unfold tlstep, tl_step. intros s' St. destruct a; repeat case_match; simplify_eq; cbn; rewrite ?app_length, ?insert_length; cbn; lia.
  Qed.
  Lemma polls_before_le n m : (n ≤ m)%nat → (polls_before x n ≤ polls_before x m)%nat.
  Proof using.
    intros H. destruct (acts_le x n m H) as (z&E). unfold polls_before. rewrite E. unfold started. rewrite omap_app, app_length. lia.
  Qed.

  (** how a poll goes on *)
  Definition later (p p' : poller A) : Prop :=
    match p with PWaiting => True | PSending r => p' = PSending r ∨ p' = PFinished | PFinished => p' = PFinished end.
  Lemma poll_step s e s' i p : tlstep s e s' → tl_polls s !! i = Some p → ∃ p', tl_polls s' !! i = Some p' ∧ later p p' ∧
    (¬ is_answer i e → ¬ is_take i e → p' = p) ∧ (∀ r, e = LAnswer i r → p = PWaiting ∧ p' = PSending r) ∧
    (∀ now, e = LTake i now → (∃ r, p = PSending r) ∧ p' = PFinished).
  Proof using.
    unfold tlstep, tl_step. intros St Hp. destruct e as [|j r|j now]; [injection St as <-|..].
    - exists p. split; [by apply lookup_app_l_Some|]. split; [destruct p; cbn; auto|]. split; [done|]. done.
    - destruct (tl_polls s !! j) as [[]|] eqn:Ej; try done. injection St as <-. cbn. destruct (decide (i = j)) as [->|Hne].
      + exists (PSending r). rewrite list_lookup_insert by (by eapply lookup_lt_Some). rewrite Hp in Ej. injection Ej as ->. split; [done|]. split; [done|].
        split; [intros H; destruct H; by eexists|]. split; [by intros ? [= ->]|done].
      + exists p. rewrite list_lookup_insert_ne by done. split; [done|]. split; [destruct p; cbn; auto|]. split; [done|]. split; [by intros ? [= -> ]|done].
    - destruct (tl_polls s !! j) as [[]|] eqn:Ej; try done. injection St as <-. cbn. destruct (decide (i = j)) as [->|Hne].
      + exists PFinished. rewrite list_lookup_insert by (by eapply lookup_lt_Some). rewrite Hp in Ej. injection Ej as ->. split; [done|]. split; [by right|].
        split; [intros _ H; destruct H; by eexists|]. split; [done|]. intros ? _. split; [by eexists|done].
      + exists p. rewrite list_lookup_insert_ne by done. split; [done|]. split; [destruct p; cbn; auto|]. split; [done|]. split; [done|by intros ? [= -> ]].
  Qed.
  Lemma poll_later n m i p : (n ≤ m)%nat → tl_polls (x_at x n) !! i = Some p → ∃ p', tl_polls (x_at x m) !! i = Some p' ∧ later p p'.
  Proof using Hx.
    intros Hle Hp. induction Hle as [|m Hm IH]; [exists p; split; [done|destruct p; cbn; auto]|]. destruct IH as (p'&Hp'&Hl).
    destruct (next _ x m Hx) as [[_ ->]|(a&_&St)]; [by exists p'|]. destruct (poll_step _ _ _ _ _ St Hp') as (p2&Hp2&Hl2&_). exists p2. split; [done|].
    destruct p; cbn in *; [done| |by subst p']. destruct Hl as [-> | ->]; cbn in Hl2; [done|by right].
  Qed.
  (** what is being sent was answered *)
  Lemma sending_answered n i r : tl_polls (x_at x n) !! i = Some (PSending r) → ∃ j, (j < n)%nat ∧ x_act x j = Some (LAnswer i r).
  Proof using Hx H0.
    induction n as [|n IH]; [rewrite H0; intros H; by destruct i as [|[]]|]. intros Hp.
    destruct (next _ x n Hx) as [[_ E]|(a&Ha&St)]; [rewrite E in Hp; destruct (IH Hp) as (j&?&?); exists j; split; [lia|done]|].
    destruct (tl_polls (x_at x n) !! i) as [p|] eqn:Ep; [|clear IH].
    - destruct (poll_step _ _ _ _ _ St Ep) as (p'&Hp'&Hl&Hs&Hans&Htk). rewrite Hp in Hp'. injection Hp' as <-.
      destruct p as [|r'|]; cbn in Hl.
      + destruct a as [|j r'|j now].
        * assert (Hf := Hs ltac:(by intros [? ?]) ltac:(by intros [? ?])). discriminate.
        * destruct (decide (j = i)) as [->|Hne]; [|assert (Hf := Hs ltac:(by intros [? [= ?]]) ltac:(by intros [? ?])); discriminate].
          destruct (Hans r' eq_refl) as [_ [= ->]]. exists n. split; [lia|done].
        * destruct (decide (j = i)) as [->|Hne]; [destruct (Htk now eq_refl) as [_ ?]; discriminate|].
          assert (Hf := Hs ltac:(by intros [? ?]) ltac:(by intros [? [= ?]])). discriminate.
      + destruct Hl as [[= ->]|]; [|done]. destruct (IH eq_refl) as (j&?&?). exists j. split; [lia|done].
      + done.
    - exfalso. revert Hp St. generalize (x_at x (S n)). unfold tlstep, tl_step. intros s' Hp St. destruct a; repeat case_match; simplify_eq; cbn in Hp.
      + apply lookup_ge_None in Ep. rewrite lookup_app_r in Hp by done. by destruct (i - _)%nat as [|[]] in Hp.
      + rewrite list_lookup_insert_Some in Hp. destruct Hp as [(->&_&?)|[_ ?]]; congruence.
      + rewrite list_lookup_insert_Some in Hp. destruct Hp as [(->&_&?)|[_ ?]]; congruence.
      + rewrite list_lookup_insert_Some in Hp. destruct Hp as [(->&_&?)|[_ ?]]; congruence.
  Qed.
  (** what was answered is received *)
  Lemma answer_taken n i r : loop_fair x → x_act x n = Some (LAnswer i r) → ∃ m now, (n < m)%nat ∧ x_act x m = Some (LTake i now) ∧
    tl_polls (x_at x m) !! i = Some (PSending r) ∧ tl_polls (x_at x (S m)) !! i = Some PFinished.
  Proof using Hx.
    intros Hf Ha. destruct (next _ x n Hx) as [[E _]|(a&E&St)]; [congruence|]. rewrite Ha in E. injection E as <-.
    assert (Hp : tl_polls (x_at x (S n)) !! i = Some (PSending r)).
    { unfold tlstep, tl_step in St. destruct (tl_polls (x_at x n) !! i) as [[]|] eqn:E; try done. injection St as <-. cbn. apply list_lookup_insert. by eapply lookup_lt_Some. }
    destruct (weak_leads tlstep x (λ _, False) (is_take i) (λ s, tl_polls s !! i = Some (PSending r)) (S n) Hx (Hf i) (none_false x _) Hp) as (m&Hm&(e&He&(now&->))&HI).
    - intros s Hs. unfold possible. exists (LTake i 0). eexists. split; [by eexists|]. unfold tlstep, tl_step. by rewrite Hs.
    - intros s a s' Hs St'. destruct (poll_step _ _ _ _ _ St' Hs) as (p'&Hp'&_&Hsame&Hans&Htk).
      assert (Hd : is_take i a ∨ ¬ is_take i a) by (destruct a as [| |j ?]; [right; by intros []|right; by intros []|destruct (decide (j = i)) as [->|]; [left; by eexists|right; by intros [? [= ?]]]]).
      destruct Hd as [|Hnt]; [by left|]. right. right. rewrite Hp'. f_equal. apply Hsame; [|done]. intros [r' ->]. by destruct (Hans r' eq_refl).
    - exists m, now. split; [lia|]. split; [done|]. split; [done|]. destruct (next _ x m Hx) as [[E _]|(a&E&St')]; [congruence|]. rewrite He in E. injection E as <-.
      destruct (poll_step _ _ _ _ _ St' HI) as (p'&Hp'&_&_&_&Htk). destruct (Htk now eq_refl) as [_ ->]. done.
  Qed.
  Lemma poll_answered n i : requests_end x → (i < polls_before x n)%nat → ∃ m, happens (is_answer i) x m.
  Proof using Hx H0.
    intros He Hi. rewrite <- tl_polls_length in Hi. apply lookup_lt_is_Some in Hi as [p Hp].
    destruct p as [|r|].
    - destruct (weak_leads tlstep x (λ _, False) (is_answer i) (λ s, tl_polls s !! i = Some PWaiting) n Hx (He i) (none_false x _) Hp) as (m&_&H&_); [| |by exists m].
      + intros s Hs. exists (LAnswer i (inr "")). eexists. split; [by eexists|]. unfold tlstep, tl_step. by rewrite Hs.
      + intros s a s' Hs St. destruct (poll_step _ _ _ _ _ St Hs) as (p'&Hp'&_&Hsame&Hans&Htk).
        assert (Hd : is_answer i a ∨ ¬ is_answer i a) by (destruct a as [|j ?|]; [right; by intros []|destruct (decide (j = i)) as [->|]; [left; by eexists|right; by intros [? [= ?]]]|right; by intros []]).
        destruct Hd as [|Hna]; [by left|]. right. right. rewrite Hp'. f_equal. apply Hsame; [done|]. intros [now ->]. destruct (Htk now eq_refl) as [[r Hr] _]. done.
    - destruct (sending_answered _ _ _ Hp) as (j&_&Hj). exists j, (LAnswer i r). split; [done|by eexists].
    - (* finished: it was sending before *)
      clear He. induction n as [|n IH]; [rewrite H0 in Hp; by destruct i as [|[]]|].
      destruct (next _ x n Hx) as [[_ E]|(a&Ha&St)]; [rewrite E in Hp; by apply IH|].
      assert (Hc : tl_polls (x_at x n) !! i = Some PFinished ∨ ∃ r, tl_polls (x_at x n) !! i = Some (PSending r)).
      { unfold tlstep, tl_step in St. destruct a as [|j r|j now]; repeat (case_match; try discriminate).
        - injection St as E. rewrite <- E in Hp. cbn in Hp. rewrite lookup_app_Some in Hp. destruct Hp as [|[_ Hp]]; [by left|]. by destruct (i - _)%nat as [|[]] in Hp.
        - injection St as E. rewrite <- E in Hp. cbn in Hp. rewrite list_lookup_insert_Some in Hp. destruct Hp as [(_&?&_)|[_ ?]]; [done|by left].
        - injection St as E. rewrite <- E in Hp. cbn in Hp. rewrite list_lookup_insert_Some in Hp. destruct Hp as [(->&_&_)|[_ ?]]; [right; by eexists|by left].
        - injection St as E. rewrite <- E in Hp. cbn in Hp. rewrite list_lookup_insert_Some in Hp. destruct Hp as [(->&_&_)|[_ ?]]; [right; by eexists|by left]. }
      destruct Hc as [Hc|[r Hc]]; [by apply IH|]. destruct (sending_answered _ _ _ Hc) as (j&_&Hj). exists j, (LAnswer i r). split; [done|by eexists].
  Qed.
  Lemma ends_decided : requests_end x → forever (happens (λ e, e = LTick) x) → ends_or_not x.
  Proof using Hx H0.
    intros He Ht i. left. assert (Hb : ∃ n, (i < polls_before x n)%nat).
    { induction i as [|i [n IH]]; [exists 0%nat; unfold polls_before, started; lia|]. destruct (Ht n) as (m&Hm&(e&Ha&->)). exists (S m).
      pose proof (polls_before_le n m Hm). unfold polls_before in *. rewrite acts_S, Ha, started_snoc. lia. }
    destruct Hb as [n Hn]. by eapply poll_answered.
  Qed.

  (** polls that are over for good *)
  Lemma over_from i : loop_fair x → ends_or_not x → ∃ m, ∀ k, (m ≤ k)%nat → ¬ happens (is_take i) x k ∧ ¬ happens (is_answer i) x k.
  Proof using Hx H0.
    intros Hf He. destruct (He i) as [(n&(e&Ha&(r&->)))|Hn].
    - destruct (answer_taken n i r Hf Ha) as (m&now&Hm&Hm1&_&Hm3). exists (S m). intros k Hk.
      destruct (poll_later (S m) k i _ Hk Hm3) as (p'&Hp'&Hl). cbn in Hl. subst p'.
      split; intros (e&He'&(z&->)); (destruct (next _ x k Hx) as [[E _]|(a&E&St)]; [congruence|]); rewrite He' in E; injection E as <-;
        destruct (poll_step _ _ _ _ _ St Hp') as (p2&_&_&_&Hans&Htk); [by destruct (Htk z eq_refl) as [[? ?] _]|by destruct (Hans z eq_refl)].
    - exists 0%nat. intros k _. split; [|apply Hn]. intros (e&He'&(z&->)). destruct (next _ x k Hx) as [[E _]|(a&E&St)]; [congruence|]. rewrite He' in E. injection E as <-.
      unfold tlstep, tl_step in St. destruct (tl_polls (x_at x k) !! i) as [[|r|]|] eqn:Ep; try done.
      destruct (sending_answered _ _ _ Ep) as (j&_&Hj). apply (Hn j). exists (LAnswer i r). split; [done|by eexists].
  Qed.
  Lemma all_over_from N : loop_fair x → ends_or_not x → ∃ m, ∀ i k, (i < N)%nat → (m ≤ k)%nat → ¬ happens (is_take i) x k ∧ ¬ happens (is_answer i) x k.
  Proof using Hx H0.
    intros Hf He. induction N as [|N [m IH]]; [exists 0%nat; intros; lia|]. destruct (over_from N Hf He) as [m' Hm']. exists (max m m').
    intros i k Hi Hk. destruct (decide (i = N)) as [->|]; [apply Hm'; lia|apply IH; lia].
  Qed.
  (** from some time on what is shown was asked for after [n] *)
  Lemma up_to_date n : loop_fair x → ends_or_not x → forever (happens is_page x) →
    ∃ m, ∀ k, (m ≤ k)%nat → ∃ a i j, on_screen x k = Some a ∧ (polls_before x n ≤ i)%nat ∧ (j < k)%nat ∧ x_act x j = Some (LAnswer i (inl a)).
  Proof using Hx H0.
    intros Hf He Hp. destruct (all_over_from (polls_before x n) Hf He) as [m0 Hm0].
    destruct (Hp m0) as (j&Hj&(e&Ha&(i&a&->))).
    assert (Hi : (polls_before x n ≤ i)%nat).
    { destruct (decide (polls_before x n ≤ i)%nat) as [|Hlt]; [done|]. destruct (Hm0 i j ltac:(lia) Hj) as [_ []]. exists (LAnswer i (inl a)). split; [done|by eexists]. }
    destruct (answer_taken j i _ Hf Ha) as (m&now&Hm&Hm1&Hm2&_). exists (S m). intros k Hk. induction Hk as [|k Hk IH].
    - exists a, i, j. destruct (next _ x m Hx) as [[E _]|(b&E&St)]; [congruence|]. rewrite Hm1 in E. injection E as <-.
      unfold tlstep, tl_step in St. rewrite Hm2 in St. injection St as E. unfold on_screen. rewrite <- E. cbn. split; [done|]. split; [done|]. split; [lia|done].
    - destruct IH as (a'&i'&j'&Hs&Hi'&Hj'&Ha'). unfold on_screen in *. destruct (next _ x k Hx) as [[_ ->]|(b&Hb&St)]; [exists a', i', j'; split; [done|]; split; [done|]; split; [lia|done]|].
      unfold tlstep, tl_step in St. destruct b as [|i2 r|i2 t].
      + injection St as E. rewrite <- E. cbn. exists a', i', j'. split; [done|]. split; [done|]. split; [lia|done].
      + destruct (tl_polls (x_at x k) !! i2) as [[]|]; try done. injection St as E. rewrite <- E. cbn. exists a', i', j'. split; [done|]. split; [done|]. split; [lia|done].
      + destruct (tl_polls (x_at x k) !! i2) as [[|r|]|] eqn:E2; try done. injection St as E. rewrite <- E. cbn.
        destruct r as [a2|x2]; cbn; [|exists a', i', j'; split; [done|]; split; [done|]; split; [lia|done]].
        destruct (sending_answered _ _ _ E2) as (j2&Hj2&Ha2). exists a2, i2, j2. split; [done|]. split; [|split; [lia|done]].
        destruct (decide (polls_before x n ≤ i2)%nat) as [|Hlt]; [done|]. destruct (Hm0 i2 k ltac:(lia) ltac:(lia)) as [[] _]. exists (LTake i2 t). split; [done|by eexists].
  Qed.
End Top.
Lemma requests_received {A} (y : exec (tloop A) (tlev A)) n i : is_exec tlstep y → x_at y 0%nat = tloop0 → loop_fair y → requests_end y →
  (i < polls_before y n)%nat → ∃ m now, x_act y m = Some (LTake i now).
Proof.
  intros Hy H0 Hf He Hi. destruct (poll_answered y Hy H0 n i He Hi) as (j&(e&Ha&(r&->))).
  destruct (answer_taken y Hy j i r Hf Ha) as (m&now&_&Hm&_). by exists m, now.
Qed.
