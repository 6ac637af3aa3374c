(** * The runtime metrics go on (C122) *)
From Verif Require Import PFair PRuntime SLive5.

Definition running_poller (ph : pphase) : Prop := match ph with PNew | PSelect | PReport _ => True | _ => False end.

Fixpoint acks (l : list pphase) : nat := match l with [] => 0%nat | PAck :: l => S (acks l) | _ :: l => acks l end.
Definition ack1 (ph : pphase) : nat := match ph with PAck => 1%nat | _ => 0%nat end.
Lemma acks_cons ph l : acks (ph :: l) = (ack1 ph + acks l)%nat.
Proof. by destruct ph. Qed.
Lemma acks_app l1 l2 : acks (l1 ++ l2) = (acks l1 + acks l2)%nat.
Proof. induction l1 as [|ph l1 IH]; [done|]. rewrite <- app_comm_cons, !acks_cons, IH. lia. Qed.
Lemma acks_insert l : ∀ p ph ph', l !! p = Some ph → (acks (<[p := ph']> l) + ack1 ph)%nat = (acks l + ack1 ph')%nat.
Proof.
  induction l as [|y l IH]; intros p ph ph' H; [done|]. destruct p as [|p].
  - injection H as ->. change (<[0%nat := ph']> (ph :: l)) with (ph' :: l). rewrite !acks_cons. lia.
  - change (<[S p := ph']> (y :: l)) with (y :: <[p := ph']> l). rewrite !acks_cons. specialize (IH _ _ ph' H). lia.
Qed.
Lemma acks_some l : (0 < acks l)%nat → ∃ p, l !! p = Some PAck.
Proof.
  induction l as [|ph l IH]; [cbn; lia|]. rewrite acks_cons. intros H. destruct (decide (ack1 ph = 0%nat)) as [E|E].
  - destruct IH as [p Hp]; [lia|]. by exists (S p).
  - exists 0%nat. by destruct ph.
Qed.
Lemma length_remove1 (i : nat) l : NoDup l → i ∈ l → S (length (remove Nat.eq_dec i l)) = length l.
Proof.
  induction 1 as [|j l Hj Hn IH]; [by intros ?%elem_of_nil|]. intros [-> |Hi]%elem_of_cons; cbn.
  - destruct (Nat.eq_dec j j); [|done]. f_equal. f_equal. apply notin_remove. by rewrite <- elem_of_list_In.
  - destruct (Nat.eq_dec i j) as [-> |]; [done|]. cbn. by rewrite IH.
Qed.
Lemma nodup_remove1 (i : nat) l : NoDup l → NoDup (remove Nat.eq_dec i l).
Proof.
  induction 1 as [|j l Hj Hn IH]; [constructor|]. cbn. destruct (Nat.eq_dec i j) as [-> |]; [done|]. constructor; [|done].
  rewrite elem_of_list_In. intros H%in_remove. destruct H as [H _]. by rewrite <- elem_of_list_In in H.
Qed.
(** each caller blocked in Stop has a poller about to answer *)
Definition racked (s : rst) : Prop := acks (rs_pollers s) = length (rs_wait s) ∧ NoDup (rs_wait s).
Lemma racked_step o s a s' : rstep o s a (Ok s') → racked s → racked s'.
Proof.
  intros H [H1 H2]. unfold racked in *. inversion H as [|s1 q Eq Hi|s1 q Eq Hi|s1 q r Eq|s1 q k v l Eq|s1 q Eq|s1 i q Eq Hi|s1 i q Eq Hi]; subst; cbn.
  { rewrite acks_app. cbn. split; [lia|done]. }
  all: match goal with |- acks (<[?q := ?ph]> _) = _ ∧ _ => pose proof (acks_insert _ _ _ ph Eq) as E; cbn in E end.
  all: try (split; [lia|done]).
  - split; [lia|]. by constructor.
  - pose proof (length_remove1 i _ H2 Hi). split; [lia|]. by apply nodup_remove1.
Qed.
Lemma racked_steps o s tr s' : rsteps o s tr (Ok s') → racked s → racked s'.
Proof.
  intros H. remember (Ok s') as r eqn:E. induction H as [|s a s1 tr r Hs Hss IH|]; [by injection E as -> |intros Hr; apply IH; [done|by eapply racked_step]|done].
Qed.
Lemma started_len o tr s : rsteps o rst0 tr (Ok s) → Z.of_nat (length (rs_pollers s)) = starts tr.
Proof.
  revert s. induction tr as [|a tr IH] using rev_ind; intros s H; [by inversion H; subst|].
  apply rsteps_snoc in H as (s1&H1&H2). specialize (IH s1 H1). rewrite starts_app. inversion H2; subst; cbn; rewrite ?length_insert, ?insert_length, ?app_length; cbn; lia.
Qed.
Lemma started_running o tr s p : rsteps o rst0 tr (Ok s) → (Z.of_nat p < starts tr) → (∀ i, RStop i p ∉ tr) →
  ∃ ph, rs_pollers s !! p = Some ph ∧ running_poller ph.
Proof.
  intros H Hp Hn. pose proof (started_len o tr s H) as Hl. destruct (lookup_lt_is_Some_2 (rs_pollers s) p ltac:(lia)) as [ph E]. exists ph. split; [done|].
  clear Hp Hl. revert s ph H E Hn. induction tr as [|a tr IH] using rev_ind; intros s ph H E Hn; [inversion H; subst; done|].
  apply rsteps_snoc in H as (s1&H1&H2).
  assert (IH1 : ∀ ph, rs_pollers s1 !! p = Some ph → running_poller ph).
  { intros ph1 E1. apply (IH s1); [done..|]. intros i Hi. apply (Hn i), elem_of_app. by left. }
  inversion H2 as [|s2 q Eq Hi|s2 q Eq Hi|s2 q r Eq|s2 q k v l Eq|s2 q Eq|s2 i q Eq Hi|s2 i q Eq Hi]; subst; cbn in E.
  { apply lookup_app_Some in E as [E|[_ E]]; [by apply IH1|]. apply elem_of_list_lookup_2, elem_of_list_singleton in E as ->. done. }
  all: destruct (decide (q = p)) as [-> |Hne]; [rewrite list_lookup_insert in E by (by eapply lookup_lt_Some); injection E as <-|rewrite list_lookup_insert_ne in E by done; by apply IH1].
  all: try done.
  - destruct (Hn i). apply elem_of_app. right. by apply elem_of_list_singleton.
  - by apply IH1 in Eq.
Qed.

Section Runtime.
  Context (o : ropts) (x : exec rst ract) (Hx : is_exec (rok o) x) (H0 : x_at x 0%nat = rst0) (Hf : runtime_fair o x) (Ho : 0 < ro_interval o).

  Lemma rreach n : rsteps o rst0 (acts x n) (Ok (x_at x n)).
  Proof using Hx H0.
    induction n as [|n IH]; [rewrite H0; constructor|]. rewrite acts_S.
    destruct (next _ x n Hx) as [[-> ->]|(a&->&Hs)]; [by rewrite app_nil_r|]. eapply rsteps_trans; [exact IH|]. econstructor; [exact Hs|constructor].
  Qed.

  (** what the others do is of no concern to poller [p] *)
  Lemma poller_step s a s' p ph : rok o s a s' → rs_pollers s !! p = Some ph →
    rs_pollers s' !! p = Some ph ∨
    (a = RTicker p ∧ ph = PNew ∧ rs_pollers s' !! p = Some PSelect) ∨
    (∃ r, a = RTick p r ∧ ph = PSelect ∧ rs_pollers s' !! p = Some (PReport (report o r))) ∨
    (∃ k v l, a = RGauge p k v ∧ ph = PReport ((k, v) :: l) ∧ rs_pollers s' !! p = Some (PReport l)) ∨
    (a = RReported p ∧ ph = PReport [] ∧ rs_pollers s' !! p = Some PSelect) ∨
    (∃ i, a = RStop i p ∧ ph = PSelect ∧ rs_pollers s' !! p = Some PAck) ∨
    (∃ i, a = RStopped i p ∧ ph = PAck ∧ rs_pollers s' !! p = Some PGone).
  Proof using.
    intros St E. unfold rok in St. inversion St as [|s1 q Eq Hi|s1 q Eq Hi|s1 q r Eq|s1 q k v l Eq|s1 q Eq|s1 i q Eq Hi|s1 i q Eq Hi]; subst; cbn.
    { left. by apply lookup_app_l_Some. }
    all: destruct (decide (q = p)) as [-> |Hne]; [rewrite list_lookup_insert by (by eapply lookup_lt_Some); rewrite E in Eq; injection Eq as ->; right
      |left; by rewrite list_lookup_insert_ne].
    - by left.
    - right. left. by exists r.
    - right. right. left. by exists k, v, l.
    - do 3 right. by left.
    - do 4 right. left. by exists i.
    - do 5 right. by exists i.
  Qed.

  Lemma after_act n a : x_act x n = Some a → rok o (x_at x n) a (x_at x (S n)).
  Proof using Hx. intros E. pose proof (Hx n) as H. by rewrite E in H. Qed.
  Lemma emission_at s a s' p l : rok o s a s' → rs_pollers s !! p = Some (PReport l) → is_emission p a →
    match l with (k, v) :: l' => a = RGauge p k v ∧ rs_pollers s' !! p = Some (PReport l') | [] => a = RReported p ∧ rs_pollers s' !! p = Some PSelect end.
  Proof using.
    intros St E Ha. unfold rok in St. destruct Ha as [(k&v&->)| ->]; inversion St as [| | | |s1 q k1 v1 l1 Eq|s1 q Eq| |]; subst; rewrite E in Eq; injection Eq as ->; cbn;
      (split; [done|]); rewrite list_lookup_insert; [done|by eapply lookup_lt_Some|done|by eapply lookup_lt_Some].
  Qed.
  Lemma emits p l n : rs_pollers (x_at x n) !! p = Some (PReport l) → ∃ m, (n ≤ m)%nat ∧ happens (is_emission p) x m ∧ rs_pollers (x_at x m) !! p = Some (PReport l).
  Proof using Hx Hf.
    intros E. apply (weak_leads _ x (λ _, False) (is_emission p) (λ s, rs_pollers s !! p = Some (PReport l)) n Hx (rf_emission _ _ Hf p) (none_false _ _) E).
    - intros s Es. destruct l as [|[k v] l].
      + exists (RReported p). eexists. split; [by right|by apply Rt_reported].
      + exists (RGauge p k v). eexists. split; [left; by exists k, v|by eapply Rt_gauge].
    - intros s a s' Es St. destruct (poller_step _ _ _ _ _ St Es) as [?|[(->&?&_)|[(r&->&?&_)|[(k&v&l'&->&?&_)|[(->&_)|[(i&->&?&_)|(i&->&?&_)]]]]]]; try done; [by right; right| |].
      + left. left. by exists k, v.
      + left. by right.
  Qed.
  Lemma report_ends p l : ∀ n, rs_pollers (x_at x n) !! p = Some (PReport l) → ∃ m, (n ≤ m)%nat ∧ rs_pollers (x_at x m) !! p = Some PSelect.
  Proof using Hx Hf.
    induction l as [|[k v] l IH]; intros n E; destruct (emits _ _ _ E) as (m&Hm&(a&Ha&Hp)&Em); pose proof (emission_at _ _ _ _ _ (after_act _ _ Ha) Em Hp) as [_ E'].
    - exists (S m). split; [lia|done].
    - destruct (IH _ E') as (k'&Hk&?). exists k'. split; [lia|done].
  Qed.
  Lemma to_select p ph n : rs_pollers (x_at x n) !! p = Some ph → running_poller ph → ∃ m, (n ≤ m)%nat ∧ rs_pollers (x_at x m) !! p = Some PSelect.
  Proof using Hx Hf Ho.
    intros E Hr. destruct ph as [| |l| |]; try done; [|by exists n|by eapply report_ends].
    destruct (weak_leads _ x (λ _, False) (λ a, a = RTicker p) (λ s, rs_pollers s !! p = Some PNew) n Hx (rf_ticker _ _ Hf p) (none_false _ _) E) as (m&Hm&(a&Ha&->)&Em).
    - intros s Es. exists (RTicker p). eexists. split; [done|by apply Rt_ticker].
    - intros s a s' Es St. destruct (poller_step _ _ _ _ _ St Es) as [?|[(->&?&_)|[(r&->&?&_)|[(k&v&l'&->&?&_)|[(->&?&_)|[(i&->&?&_)|(i&->&?&_)]]]]]]; try done; [by right; right|by left].
    - exists (S m). split; [lia|]. pose proof (after_act _ _ Ha) as St. unfold rok in St. inversion St; subst. cbn. apply list_lookup_insert. by eapply lookup_lt_Some.
  Qed.
  Definition runs (p : nat) (s : rst) : Prop := ∃ ph, rs_pollers s !! p = Some ph ∧ running_poller ph.
  Lemma runs_step p s a s' : runs p s → rok o s a s' → is_stop_of p a ∨ runs p s'.
  Proof using.
    intros (ph&E&Hr) St. destruct (poller_step _ _ _ _ _ St E) as [?|[(->&?&?)|[(r&->&?&?)|[(k&v&l'&->&?&?)|[(->&?&?)|[(i&->&?&?)|(i&->&->&?)]]]]]]; try done; try (right; by eexists).
    left. by exists i.
  Qed.

  Lemma thm_ticks p n0 : Z.of_nat p < starts (acts x n0) → never (is_stop_of p) x → forever (happens (is_tick p) x).
  Proof using Hx H0 Hf Ho.
    intros Hs Hn.
    assert (Hr : ∀ n, (n0 ≤ n)%nat → runs p (x_at x n)).
    { intros n Hle. eapply started_running; [apply rreach| |].
      - destruct (acts_le x n0 n Hle) as [l ->]. rewrite starts_app. pose proof (starts_nonneg l). lia.
      - intros i Hi. apply acts_in in Hi as (k&_&Hk). apply (Hn k). exists (RStop i p). split; [done|by exists i]. }
    intros n. set (n1 := Nat.max n0 n).
    destruct (strong_leads _ x (is_stop_of p) (is_tick p) (runs p) n1 Hx (rf_tick _ _ Hf p) (never_none _ _ _ Hn) (Hr n1 ltac:(lia))) as (m&Hm&Hh&_).
    - intros k Hk (ph&E&Hp). destruct (to_select p ph k E Hp) as (m&Hm&E'). exists m. split; [done|]. intros _.
      exists (RTick p (Readings 0 0 0 0 0 f0 0 0 0 0 None)). eexists. split; [by eexists|by apply Rt_tick].
    - intros s a s' Hi St. right. by destruct (runs_step _ _ _ _ Hi St); [left|right].
    - exists m. split; [lia|done].
  Qed.
  Lemma thm_reports_emitted p n : ∃ m, (n ≤ m)%nat ∧ concat (reports_of o p (acts x n)) `prefix_of` gauges_of p (acts x m).
  Proof using Hx H0 Hf.
    assert (∃ m, (n ≤ m)%nat ∧ todo_of (rs_pollers (x_at x m) !! p) = []) as (m&Hm&E).
    { destruct (rs_pollers (x_at x n) !! p) as [[| |l| |]|] eqn:Ep; try (exists n; split; [done|by rewrite Ep]).
      destruct (report_ends _ _ _ Ep) as (m&Hm&E). exists m. split; [done|by rewrite E]. }
    exists m. split; [done|]. pose proof (thm_emitted o (acts x m) (x_at x m) (rreach m) p) as Em. rewrite E, app_nil_r in Em. rewrite <- Em.
    destruct (acts_le x n m Hm) as [l ->]. rewrite reports_app, concat_app. by apply prefix_app_r.
  Qed.
  (** a Stop that was taken returns *)
  Lemma waiting_returns i n : i ∈ rs_wait (x_at x n) → ∃ m, (n ≤ m)%nat ∧ happens (is_return_of i) x m.
  Proof using Hx H0 Hf.
    intros Hi. destruct (weak_leads_at _ x (λ _, False) (is_return_of i) (λ s, i ∈ rs_wait s) n Hx (rf_stopped _ _ Hf i) (none_false _ _) Hi) as (m&Hm&H&_).
    - intros m Hm Hw. assert (racked (x_at x m)) as [Hr _].
      { eapply racked_steps; [apply rreach|]. split; [done|constructor]. }
      destruct (acks_some (rs_pollers (x_at x m))) as [p Hp].
      { rewrite Hr. destruct (rs_wait (x_at x m)); [by apply elem_of_nil in Hw|cbn; lia]. }
      exists (RStopped i p). eexists. split; [by exists p|by apply Rt_stopped].
    - intros s a s' Hw St. unfold rok in St. inversion St as [|s1 q Eq Hj|s1 q Eq Hj|s1 q r Eq|s1 q k v l Eq|s1 q Eq|s1 j q Eq Hj|s1 j q Eq Hj]; subst; cbn; try (right; by right).
      + right. right. apply elem_of_cons. by right.
      + destruct (decide (j = i)) as [-> |Hne]; [left; by exists q|]. right. right. rewrite elem_of_list_In in *. by apply in_in_remove.
    - by exists m.
  Qed.
  Lemma thm_stop_returns i p n : x_act x n = Some (RStop i p) → ∃ m, (n < m)%nat ∧ happens (is_return_of i) x m.
  Proof using Hx H0 Hf.
    intros Ha. pose proof (after_act _ _ Ha) as St. unfold rok in St.
    destruct (waiting_returns i (S n)) as (m&Hm&H); [inversion St; subst; cbn; by left|]. exists m. split; [lia|done].
  Qed.
  Lemma thm_stop_taken i p n : keeps_stopping o i x → Z.of_nat p < starts (acts x n) → (∀ j, RStop j p ∉ acts x n) → never (is_stop_not_by i) x →
    ∃ m, (n ≤ m)%nat ∧ happens (is_stop_by i) x m.
  Proof using Hx H0 Hf Ho.
    intros Hk Hs Hn Ho'. assert (Hr : runs p (x_at x n)) by (eapply started_running; [apply rreach|done..]).
    set (I s := runs p s ∧ (i ∉ rs_wait s)).
    assert (HI : ∀ s a s', I s → rok o s a s' → is_stop_by i a ∨ is_stop_not_by i a ∨ I s').
    { intros s a s' [Hp Hw] St. destruct (runs_step _ _ _ _ Hp St) as [(j&->)|Hp'].
      { destruct (decide (j = i)) as [-> |]; [left; by exists p|right; left; by exists j, p]. }
      unfold rok in St. inversion St as [|s1 q Eq Hj|s1 q Eq Hj|s1 q r Eq|s1 q k v l Eq|s1 q Eq|s1 j q Eq Hj|s1 j q Eq Hj]; subst; try (right; by right).
      - destruct (decide (j = i)) as [-> |]; [left; by exists q|right; left; by exists j, q].
      - right. right. split; [done|]. cbn. rewrite elem_of_list_In in *. intros [H _]%in_remove. done. }
    assert (L : ∀ k, I (x_at x k) → ∃ m, (k ≤ m)%nat ∧ happens (is_stop_by i) x m).
    { intros k Ik. destruct (strong_leads _ x (is_stop_not_by i) (is_stop_by i) I k Hx Hk (never_none _ _ _ Ho') Ik) as (m&Hm&H&_); [|exact HI|by exists m].
      intros j Hj [(ph&E&Hp) _]. destruct (to_select p ph j E Hp) as (m&Hm&E'). exists m. split; [done|]. intros [_ Hw].
      exists (RStop i p). eexists. split; [by exists p|by apply Rt_stop]. }
    destruct (decide (i ∈ rs_wait (x_at x n))) as [Hw|Hw]; [|by apply L].
    (* the previous call must return first *)
    destruct (weak_leads_at _ x (is_stop_not_by i) (is_return_of i) (λ s, i ∈ rs_wait s ∧ runs p s) n Hx (rf_stopped _ _ Hf i) (never_none _ _ _ Ho') (conj Hw Hr)) as (m&Hm&(a&Ha&(q&->))&Hi&Hp).
    - intros m Hm [Hw' _]. assert (racked (x_at x m)) as [Hr' _].
      { eapply racked_steps; [apply rreach|]. split; [done|constructor]. }
      destruct (acks_some (rs_pollers (x_at x m))) as [q Hq].
      { rewrite Hr'. destruct (rs_wait (x_at x m)); [by apply elem_of_nil in Hw'|cbn; lia]. }
      exists (RStopped i q). eexists. split; [by exists q|by apply Rt_stopped].
    - intros s a s' [Hw' Hp'] St. destruct (runs_step _ _ _ _ Hp' St) as [(j&->)|Hp''].
      { destruct (decide (j = i)) as [-> |]; [unfold rok in St; by inversion St; subst|right; left; by exists j, p]. }
      unfold rok in St. inversion St as [|s1 q Eq Hj|s1 q Eq Hj|s1 q r Eq|s1 q k v l Eq|s1 q Eq|s1 j q Eq Hj|s1 j q Eq Hj]; subst; try (right; by right).
      + right. right. split; [|done]. apply elem_of_cons. by right.
      + destruct (decide (j = i)) as [-> |Hne]; [left; by exists q|]. right. right. split; [|done]. cbn. rewrite elem_of_list_In in *. by apply in_in_remove.
    - destruct (L (S m)) as (m'&Hm'&H); [|exists m'; split; [lia|done]].
      pose proof (after_act _ _ Ha) as St. destruct (runs_step _ _ _ _ Hp St) as [(j&?)|Hp']; [done|]. split; [done|].
      unfold rok in St. inversion St; subst. cbn. rewrite elem_of_list_In. apply remove_In.
  Qed.
End Runtime.
