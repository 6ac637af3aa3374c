(** * Fair executions of healthd in which somebody waits forever *)
From Verif Require Import PFair PHealthdLoop PHealthdLoop2 PHealthdLoopEx SLive2.

(** ** Executions that begin with given steps *)
Section Prefix.
  Context {S A : Type} (step : S → A → S → Prop).
  Definition before (s : S) (a : A) (x : exec S A) : exec S A :=
    Exec (λ n, match n with O => s | Datatypes.S k => x_at x k end) (λ n, match n with O => Some a | Datatypes.S k => x_act x k end).
  Lemma before_exec s a x : is_exec step x → step s a (x_at x 0%nat) → is_exec step (before s a x).
  Proof. intros H1 H2 [|n]; [done|]. apply H1. Qed.
  Definition still (s : S) : exec S A := Exec (λ _, s) (λ _, None).
  Lemma still_exec s : is_exec step (still s).
  Proof. by intros n. Qed.
  Lemma acts_before s a x n : acts (before s a x) (Datatypes.S n) = a :: acts x n.
  Proof.
    unfold acts. cbn [seq omap list_omap before x_act]. f_equal. rewrite <-fmap_S_seq. generalize (seq 0 n). intros l.
    induction l as [|k l IH]; cbn; [done|]. rewrite IH. done.
  Qed.
End Prefix.

(** [x] does [tr] and then goes on like [y] *)
Definition goes_on (x : exec hl (Z * hact)) (tr : list (Z * hact)) (y : exec hl (Z * hact)) : Prop :=
  (∀ n, acts x (length tr + n)%nat = tr ++ acts y n) ∧ (∀ n a, tr !! n = Some a → x_act x n = Some a) ∧
  (∀ n, x_at x (length tr + n)%nat = x_at y n) ∧ (∀ n, x_act x (length tr + n)%nat = x_act y n).
Lemma hl_prefix s0 tr s y : hlsteps s0 tr s → is_exec hlstep y → x_at y 0%nat = s →
  ∃ x, is_exec hlstep x ∧ x_at x 0%nat = s0 ∧ goes_on x tr y.
Proof.
  intros H Hy. induction H as [s|s a s1 tr s' H1 H2 IH]; intros E.
  { exists y. split; [done|]. split; [done|]. repeat split; done. }
  destruct (IH E) as (x&Hx&E0&Hg1&Hg2&Hg3&Hg4). exists (before s a x). split; [apply before_exec; [done|by rewrite E0]|]. split; [done|].
  split; [|split; [|split]].
  - intros n. cbn [length Nat.add]. rewrite acts_before, Hg1. done.
  - intros [|n] b Hb; cbn in *; [congruence|by apply Hg2].
  - intros n. apply Hg3.
  - intros n. apply Hg4.
Qed.

Lemma clock_prefix (tr1 tr2 : list (Z * hact)) : clock_runs (tr1 ++ tr2) → clock_runs tr1.
Proof.
  intros [H1 H2]. rewrite map_app in H1, H2. split.
  - clear H2. induction (map fst tr1) as [|t l IH]; [constructor|]. inversion H1 as [|? ? H3 H4]; subst.
    constructor; [by apply IH|]. by apply Forall_app in H4 as [? _].
  - intros t Ht. apply H2, elem_of_app. by left.
Qed.

(** ** The deadlock *)
Lemma quiet_calls s0 tr s : hlsteps s0 tr s → Forall quiet tr → l_pass s0 = [] ∧ l_iq s0 = [] ∧ l_hq s0 = [] ∧ l_flag s0 = false →
  l_pass s = [] ∧ l_iq s = [] ∧ l_hq s = [] ∧ l_flag s = false.
Proof.
  induction 1 as [s|s a s1 tr s' H1 H2 IH]; intros HF Hs; [done|]. inversion HF as [|? ? Ha HF']; subst. apply IH; [done|].
  destruct Hs as (E1&E2&E3&E4). clear IH H2 HF HF'.
  destruct H1; cbn in Ha |- *; try done; unfold after; try (repeat match goal with |- context [match ?r with Ok _ => _ | Crash _ => _ end] => destruct r end; cbn; done).
  all: try (by rewrite E1 in *; destruct p1).
  all: try congruence.
Qed.

Lemma wedged_impossible s (P : hact → Prop) : wedged s → l_pass s = [] → (∀ a, P a → match a with
    HPush _ _ | HPushNil _ | HRefuse _ _ | HCall _ _ | HStop _ => False | _ => True end) →
  ¬ possible hlstep (is_act P) s.
Proof.
  intros (H1&H2&o&H3) Hp HP (a&s'&Ha&St). specialize (HP _ Ha). clear Ha.
  inversion St; subst; cbn in HP; try done; try congruence.
  all: try (match goal with H : dstep _ (l_deb _) _ _ |- _ => rewrite H3 in H; inversion H end).
  all: try (unfold req_cap in *; lia).
  all: match goal with H : l_pass _ = ?p ++ _ |- _ => rewrite Hp in H; by destruct p end.
Qed.

Lemma latest (tr : list (Z * hact)) : ∃ t, 0 < t ∧ ∀ u, u ∈ map fst tr → u ≤ t.
Proof.
  induction tr as [|[u a] tr (t&Ht&IH)]; [exists 1; split; [done|]; intros u Hu; by apply elem_of_nil in Hu|].
  exists (Z.max t u). split; [lia|]. intros v. cbn. rewrite elem_of_cons. intros [-> |Hv]; [lia|]. apply IH in Hv. lia.
Qed.
Lemma acts_clock (x : exec hl (Z * hact)) (tr : list (Z * hact)) : (∀ n, ∃ l, tr = acts x n ++ l) → clock_runs tr → ∀ n, clock_runs (acts x n).
Proof. intros H Hc n. destruct (H n) as [l E]. rewrite E in Hc. by eapply clock_prefix. Qed.
Lemma still_nothing (s : hl) n : acts (still s : exec hl (Z * hact)) n = [].
Proof. unfold acts. generalize (seq 0 n). by induction l. Qed.
Lemma goes_still x tr s n : goes_on x tr (still s) → ∃ l, tr = acts x n ++ l.
Proof.
  intros (H1&_). destruct (decide (n ≤ length tr)%nat) as [Hn|Hn].
  - destruct (acts_le x n (length tr) Hn) as [l Hl]. specialize (H1 0%nat). rewrite Nat.add_0_r in H1. rewrite H1 in Hl. exists l.
    rewrite <-Hl. unfold acts at 1. cbn. by rewrite app_nil_r.
  - exists []. replace n with (length tr + (n - length tr))%nat by lia. rewrite H1, still_nothing, !app_nil_r. done.
Qed.
Lemma goes_act x tr y n a : goes_on x tr y → x_act x n = Some a → (tr !! n = Some a) ∨ ∃ k, x_act y k = Some a.
Proof.
  intros (_&H2&_&H4) E. destruct (tr !! n) as [b|] eqn:Eb.
  - rewrite (H2 _ _ Eb) in E. left. congruence.
  - right. apply lookup_ge_None in Eb. exists (n - length tr)%nat. rewrite <-H4. by replace (length tr + (n - length tr))%nat with n by lia.
Qed.

Lemma still_fair x tr s : goes_on x tr (still s) → wedged s → l_pass s = [] → healthd_fair x.
Proof.
  intros (_&_&H3&_) Hw Hp.
  assert (HP : ∀ P : hact → Prop, (∀ a, P a → match a with HPush _ _ | HPushNil _ | HRefuse _ _ | HCall _ _ | HStop _ => False | _ => True end) →
    ∀ n, (length tr ≤ n)%nat → ¬ possible hlstep (is_act P) (x_at x n)).
  { intros P Ha n Hn. replace n with (length tr + (n - length tr))%nat by lia. rewrite H3. by apply wedged_impossible. }
  assert (HW : ∀ P : hact → Prop, (∀ n, (length tr ≤ n)%nat → ¬ possible hlstep (is_act P) (x_at x n)) → weakly_fair hlstep (is_act P) x).
  { intros P Hn. apply weak_impossible. intros n. exists (n + length tr)%nat. split; [lia|]. apply Hn. lia. }
  split.
  1-5: (eapply strong_impossible; apply HP; by intros []).
  1: (intros i; eapply strong_impossible; apply HP; by intros []).
  all: apply HW, HP; by intros [].
Qed.

Lemma fair_deadlock : ∃ hosts x n t i, length hosts = 66%nat ∧ is_exec hlstep x ∧ x_at x 0%nat = hl_init hosts ∧ healthd_fair x ∧
  (∀ n, clock_runs (acts x n)) ∧ never (is_act is_stop) x ∧ (∀ n, l_loop (x_at x n) ≠ ACrash) ∧
  x_act x n = Some (t, HCall i QIntervals) ∧ never (is_act is_ret) x.
Proof.
  destruct deadlock as (tr&s&Hc&H&Hq&Hw).
  destruct (quiet_calls _ _ _ H Hq) as (E1&E2&E3&E4); [done|].
  destruct (latest tr) as (t&Ht&Hle).
  assert (H1 : hlstep s (t, HCall 0 QIntervals) (HL (l_hd s) (l_loop s) (l_resp s) (l_req s) (l_deb s) (l_rounds s) [(0%nat, QIntervals)] [] [] false (l_stop s) (l_bye s))).
  { pose proof (Hl_call s t 0%nat QIntervals) as Hs. rewrite E1, E2, E3, E4 in Hs. apply Hs; [by destruct Hw as [-> _]|done|].
    unfold l_idle. rewrite E1, E2, E3. destruct Hw as [-> _]. repeat split; try done; intros; by apply not_elem_of_nil. }
  set (s1 := HL _ _ _ _ _ _ _ _ _ _ _ _) in H1.
  pose proof (wedged_step _ _ _ Hw H1) as (Hw1&_&_).
  pose proof (Hl_queue_i s1 t 0%nat [] [] ltac:(by destruct Hw1 as [-> _]) eq_refl ltac:(done)) as H2.
  set (s2 := HL _ _ _ _ _ _ _ _ _ _ _ _) in H2.
  pose proof (wedged_step _ _ _ Hw1 H2) as (Hw2&_&_).
  assert (Hs : hlsteps (hl_init w_hosts) (tr ++ [(t, HCall 0 QIntervals); (t, HQueue 0 QIntervals)]) s2).
  { apply hlsteps_app. exists s. split; [done|]. econstructor; [exact H1|]. by apply hlsteps_one. }
  destruct (hl_prefix _ _ _ (still s2) Hs (still_exec _ _) eq_refl) as (x&Hx&E0&Hg).
  assert (HA : ∀ m b, x_act x m = Some b → b ∈ tr ∨ b = (t, HCall 0 QIntervals) ∨ b = (t, HQueue 0 QIntervals)).
  { intros m b Hb. destruct (goes_act _ _ _ _ _ Hg Hb) as [Hb'|[k Hk]]; [|done]. apply elem_of_list_lookup_2 in Hb'.
    apply elem_of_app in Hb' as [?|Hb']; [by left|]. right. apply elem_of_cons in Hb' as [?|Hb']; [by left|right]. by apply elem_of_list_singleton in Hb'. }
  rewrite Forall_forall in Hq.
  exists w_hosts, x, (length tr), t, 0%nat. split; [done|]. split; [done|]. split; [done|]. split; [by eapply still_fair|].
  split. { eapply acts_clock; [intros n; by eapply goes_still|]. destruct (clock_const_app tr t [(t, HCall 0 QIntervals); (t, HQueue 0 QIntervals)]) as [? _]; try done. by repeat constructor. }
  split. { intros m (b&Hb&Hst). apply HA in Hb as [Hb|[-> | ->]]; [|done|done]. apply Hq in Hb. destruct b as [? []]; done. }
  split. { intros n E. destruct (decide (length (tr ++ [(t, HCall 0 QIntervals); (t, HQueue 0 QIntervals)]) ≤ n)%nat) as [Hn|Hn].
    - replace n with (length (tr ++ [(t, HCall 0 QIntervals); (t, HQueue 0 QIntervals)]) + (n - length (tr ++ [(t, HCall 0 QIntervals); (t, HQueue 0 QIntervals)])))%nat in E by lia.
      destruct Hg as (_&_&Hg&_). rewrite Hg in E. destruct Hw2 as [Hw2 _]. unfold still in E. cbn [x_at] in E. rewrite Hw2 in E. done.
    - assert (HC : ∀ j, (n ≤ j)%nat → l_loop (x_at x j) = ACrash).
      { induction 1 as [|j Hj IH]; [done|]. pose proof (Hx j) as St. destruct (x_act x j) as [b|]; [|by rewrite St].
        exfalso. revert St. generalize (x_at x (S j)). intros s' St. inversion St; congruence. }
      pose proof (HC (length (tr ++ [(t, HCall 0 QIntervals); (t, HQueue 0 QIntervals)]) + 0)%nat ltac:(lia)) as E'.
      destruct Hg as (_&_&Hg&_). rewrite Hg in E'. destruct Hw2 as [Hw2 _]. unfold still in E'. cbn [x_at] in E'. rewrite Hw2 in E'. done. }
  split. { destruct Hg as (_&Hg&_). apply Hg. rewrite lookup_app_r by lia. by rewrite Nat.sub_diag. }
  intros m (b&Hb&Hr). apply HA in Hb as [Hb|[-> | ->]]; [|done|done]. apply Hq in Hb. destruct b as [? []]; done.
Qed.

(** ** After the loop has left: the debouncer finds no request, again and again *)
Definition idles (t0 : Z) (n : nat) (s : hl) : option (Z * hact) * hl :=
  match l_deb s with
  | DTop _ => (Some (t0 + Z.of_nat n, HDeb DIdle), with_deb s (l_req s) (DChk 0))
  | _ => (Some (t0 + Z.of_nat n, HDeb DCheck), with_deb s (l_req s) (DTop 0))
  end.
Definition left_loop (s : hl) : Prop :=
  l_loop s = AGone ∧ l_req s = 0 ∧ l_pass s = [] ∧ (l_deb s = DTop 0 ∨ l_deb s = DChk 0).
Lemma idles_step t0 n s : left_loop s → ∃ a, (idles t0 n s).1 = Some (t0 + Z.of_nat n, HDeb a) ∧
  hlstep s (t0 + Z.of_nat n, HDeb a) (idles t0 n s).2 ∧ left_loop (idles t0 n s).2.
Proof.
  intros (E1&E2&E3&[E4|E4]); unfold idles; rewrite E4; cbn [fst snd].
  - exists DIdle. split; [done|]. split; [apply Hl_deb_idle; [by rewrite E1|done|rewrite E4; apply Db_idle]|]. repeat split; try done. by right.
  - exists DCheck. split; [done|]. split; [apply Hl_deb_check; [by rewrite E1|rewrite E4; apply (Db_check threshold 0)]|]. repeat split; try done. by left.
Qed.
Lemma idles_inv t0 s n : left_loop s → left_loop (run_at (idles t0) s n).
Proof. intros H. induction n as [|n IH]; [done|]. cbn. by destruct (idles_step t0 n _ IH) as (_&_&_&?). Qed.
Lemma idles_act t0 s n : left_loop s → ∃ a, x_act (run (idles t0) s) n = Some (t0 + Z.of_nat n, HDeb a).
Proof. intros H. destruct (idles_step t0 n _ (idles_inv t0 s n H)) as (a&E&_). by exists a. Qed.
Lemma idles_exec t0 s : left_loop s → is_exec hlstep (run (idles t0) s).
Proof.
  intros H. apply run_exec. intros n. destruct (idles_step t0 n _ (idles_inv t0 s n H)) as (a&E&St&_). rewrite E. exact St.
Qed.

Lemma left_impossible s (P : hact → Prop) : left_loop s → (∀ a, P a → match a with
    HPush _ _ | HPushNil _ | HRefuse _ _ | HCall _ _ | HStop _ | HDeb _ => False | _ => True end) →
  ¬ possible hlstep (is_act P) s.
Proof.
  intros (H1&H2&Hp&_) HP (a&s'&Ha&St). specialize (HP _ Ha). clear Ha.
  inversion St; subst; cbn in HP; try done; try congruence.
  all: match goal with H : l_pass _ = ?p ++ _ |- _ => rewrite Hp in H; by destruct p end.
Qed.
Lemma left_fair x tr s t0 : goes_on x tr (run (idles t0) s) → left_loop s → healthd_fair x.
Proof.
  intros (_&_&H3&H4) Hs.
  assert (HP : ∀ P : hact → Prop, (∀ a, P a → match a with HPush _ _ | HPushNil _ | HRefuse _ _ | HCall _ _ | HStop _ | HDeb _ => False | _ => True end) →
    ∀ n, (length tr ≤ n)%nat → ¬ possible hlstep (is_act P) (x_at x n)).
  { intros P Ha n Hn. replace n with (length tr + (n - length tr))%nat by lia. rewrite H3. apply left_impossible; [by apply idles_inv|done]. }
  assert (HW : ∀ P : hact → Prop, (∀ n, (length tr ≤ n)%nat → ¬ possible hlstep (is_act P) (x_at x n)) → weakly_fair hlstep (is_act P) x).
  { intros P Hn. apply weak_impossible. intros n. exists (n + length tr)%nat. split; [lia|]. apply Hn. lia. }
  split.
  1-5: (eapply strong_impossible; apply HP; by intros []).
  1: (intros i; eapply strong_impossible; apply HP; by intros []).
  1-2: apply HW, HP; by intros [].
  - apply weak_happens. intros n. exists (length tr + n)%nat. split; [lia|]. destruct (idles_act t0 s n Hs) as (a&E). eexists. split; [by rewrite H4|done].
  - apply HW, HP; by intros [].
Qed.
Lemma goes_time x tr s t0 : goes_on x tr (run (idles t0) s) → left_loop s → (∀ b, b ∈ tr → 0 < b.1) → 0 < t0 → time_passes x.
Proof.
  intros Hg Hs Htr Ht. split.
  - intros n t a E. destruct (goes_act _ _ _ _ _ Hg E) as [E'|[k Hk]].
    + apply elem_of_list_lookup_2, Htr in E'. done.
    + destruct (idles_act t0 s k Hs) as (b&Eb). rewrite Hk in Eb. injection Eb as -> _. lia.
  - intros T. exists (length tr + Z.to_nat T)%nat. intros n t a Hn E. destruct Hg as (_&_&_&H4).
    replace n with (length tr + (n - length tr))%nat in E by lia. rewrite H4 in E.
    destruct (idles_act t0 s (n - length tr) Hs) as (b&Eb). rewrite E in Eb. injection Eb as -> _. lia.
Qed.

Lemma persists (I : hl → Prop) x n m : is_exec hlstep x → (∀ s a s', I s → hlstep s a s' → I s') → (n ≤ m)%nat → I (x_at x n) → I (x_at x m).
Proof.
  intros Hx HI Hn H. induction Hn as [|m Hn IH]; [done|]. pose proof (Hx m) as St. destruct (x_act x m); [by eapply HI|by rewrite St].
Qed.
Lemma left_before x tr s t0 : is_exec hlstep x → goes_on x tr (run (idles t0) s) → left_loop s →
  ∀ n, l_loop (x_at x n) ≠ ACrash ∧ ¬ wedged (x_at x n).
Proof.
  intros Hx Hg Hs n. assert (E : l_loop (x_at x (length tr + n)%nat) = AGone).
  { destruct Hg as (_&_&Hg&_). rewrite Hg. by apply idles_inv. }
  split; intros H.
  - apply (persists (λ s, l_loop s = ACrash) x n (length tr + n)%nat) in H; [congruence|done| |lia].
    intros s1 a s2 E1 St. exfalso. inversion St; congruence.
  - apply (persists wedged x n (length tr + n)%nat) in H; [destruct H as [H _]; congruence|done| |lia].
    intros s1 a s2 E1 St. by apply (wedged_step _ _ _ E1 St).
Qed.
Lemma goes_in x tr s t0 n b : goes_on x tr (run (idles t0) s) → left_loop s → x_act x n = Some b → tr !! n = Some b ∨ ∃ t a, b = (t, HDeb a).
Proof.
  intros Hg Hs E. destruct (goes_act _ _ _ _ _ Hg E) as [E'|[k Hk]]; [by left|right].
  destruct (idles_act t0 s k Hs) as (a&Ea). rewrite Hk in Ea. injection Ea as ->. eauto.
Qed.
Lemma fair_hang : ∃ x n t i, is_exec hlstep x ∧ x_at x 0%nat = hl_init ["h:1"] ∧ healthd_fair x ∧ time_passes x ∧
  (∀ n, l_loop (x_at x n) ≠ ACrash ∧ ¬ wedged (x_at x n)) ∧ (∀ n m, happens (is_act is_stop) x n → happens (is_act is_stop) x m → n = m) ∧
  x_act x n = Some (t, HCall i QIntervals) ∧ never (is_act is_ret) x.
Proof.
  destruct race_runs as (s&H&E1&E2&E3&E4).
  assert (Hs : left_loop s) by (repeat split; try done; by left).
  destruct (hl_prefix _ _ _ _ H (idles_exec 6 s Hs) eq_refl) as (x&Hx&E0&Hg). exists x, 0%nat, 1, 1%nat.
  split; [done|]. split; [done|]. split; [by eapply left_fair|].
  split. { eapply goes_time; [done|done| |done]. intros b Hb. unfold race in Hb. repeat (apply elem_of_cons in Hb as [-> |Hb]; [done|]). by apply elem_of_nil in Hb. }
  split; [by eapply left_before|]. split; [|split].
  - assert (Hst : ∀ n, happens (is_act is_stop) x n → n = 1%nat).
    { intros n (b&Hb&Hst). destruct (goes_in _ _ _ _ _ _ Hg Hs Hb) as [Hb'|(?&?&->)]; [|done].
      do 5 (destruct n as [|n]; [cbn in Hb'; injection Hb' as <-; done|]). done. }
    intros n m Hn Hm. rewrite (Hst _ Hn), (Hst _ Hm). done.
  - destruct Hg as (_&Hg&_). by apply Hg.
  - intros n (b&Hb&Hst). destruct (goes_in _ _ _ _ _ _ Hg Hs Hb) as [Hb'|(?&?&->)]; [|done].
    do 5 (destruct n as [|n]; [cbn in Hb'; injection Hb' as <-; done|]). done.
Qed.
Lemma fair_second_stop : ∃ x n t i, is_exec hlstep x ∧ x_at x 0%nat = hl_init ["h:1"] ∧ healthd_fair x ∧ time_passes x ∧
  (∀ n, l_loop (x_at x n) ≠ ACrash ∧ ¬ wedged (x_at x n)) ∧
  x_act x n = Some (t, HStop i) ∧ ∀ m t', x_act x m ≠ Some (t', HStopRet i).
Proof.
  destruct twice_runs as (s&H&E1&E2&E3&E4).
  assert (Hs : left_loop s) by (repeat split; try done; by left).
  destruct (hl_prefix _ _ _ _ H (idles_exec 5 s Hs) eq_refl) as (x&Hx&E0&Hg). exists x, 3%nat, 4, 2%nat.
  split; [done|]. split; [done|]. split; [by eapply left_fair|].
  split. { eapply goes_time; [done|done| |done]. intros b Hb. unfold twice in Hb. repeat (apply elem_of_cons in Hb as [-> |Hb]; [done|]). by apply elem_of_nil in Hb. }
  split; [by eapply left_before|]. split.
  - destruct Hg as (_&Hg&_). by apply Hg.
  - intros n t' Hb. destruct (goes_in _ _ _ _ _ _ Hg Hs Hb) as [Hb'|(?&?&?)]; [|done].
    do 4 (destruct n as [|n]; [cbn in Hb'; injection Hb'; done|]). done.
Qed.
