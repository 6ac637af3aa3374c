(** * Concurrent callers and several sinks *)
From Verif Require Export SProcess.
From Verif Require Import PLibrato2 PStack PPolling PStatsdLoop PStatsdEx.

Lemma qsteps_app tr1 : ∀ s tr2 s', qsteps s (tr1 ++ tr2) s' ↔ ∃ m, qsteps s tr1 m ∧ qsteps m tr2 s'.
Proof.
  induction tr1 as [|a tr1 IH]; intros s tr2 s'; cbn [app]; split.
  - intros H. exists s. split; [constructor|done].
  - intros (m & H1 & H2). inversion H1; subst. done.
  - intros H. inversion H; subst. apply IH in H5 as (m & ? & ?). exists m. split; [by econstructor|done].
  - intros (m & H1 & H2). inversion H1; subst. econstructor; [done|]. apply IH. eauto.
Qed.
Lemma qsteps_one s a s' : qsteps s [a] s' ↔ qstep s a s'.
Proof.
  split; [|by repeat econstructor]. intros H. inversion H; subst.
  match goal with H : qsteps _ [] _ |- _ => inversion H; subst end. done.
Qed.
Lemma qsteps_snoc s tr a s' : qsteps s (tr ++ [a]) s' ↔ ∃ m, qsteps s tr m ∧ qstep m a s'.
Proof. rewrite qsteps_app. setoid_rewrite qsteps_one. done. Qed.

Lemma heard_by_snoc tr a g k :
  heard_by (tr ++ [a]) g k = heard_by tr g k ++ match a with QEmit g' k' c e => if decide (g' = g ∧ k' = k) then [(c, e)] else [] | _ => [] end.
Proof. unfold heard_by. rewrite omap_app. f_equal. destruct a; cbn; try done. by case_decide. Qed.
Lemma heard_snoc tr a k : heard (tr ++ [a]) k = heard tr k ++ match a with QEmit _ k' c e => if decide (k' = k) then [(c, e)] else [] | _ => [] end.
Proof. unfold heard. rewrite omap_app. f_equal. destruct a; cbn; try done. by case_decide. Qed.
Lemma told_snoc tr a k : told (tr ++ [a]) k = told tr k ++ match a with QEmit _ k' c _ => if decide (k' = k) then [c] else [] | _ => [] end.
Proof. unfold told. rewrite heard_snoc, map_app. f_equal. destruct a; cbn; try done. by case_decide. Qed.
Lemma hears_tells k prog : map fst (hears k prog) = tells_sink k prog.
Proof. unfold hears, tells_sink. by rewrite map_map. Qed.
Lemma returned_snoc tr a g : returned (tr ++ [a]) g = (returned tr g + match a with QNext g' => if decide (g' = g) then 1 else 0 | _ => 0 end)%nat.
Proof. unfold returned. rewrite omap_app, app_length. f_equal. destruct a; cbn; try done. by case_decide. Qed.

(** ** Callers *)
Record cinv (progs : list (list scall)) (n : nat) (tr : list qact) (s : proc) : Prop := {
  ci_sinks : length (q_sinks s) = n;
  ci_len : length (q_callers s) = length progs;
  ci_call : ∀ g prog, progs !! g = Some prog → ∃ at_ dn rest,
    q_callers s !! g = Some (Caller at_ rest) ∧ prog = dn ++ rest ∧ returned tr g = length dn ∧ (at_ ≤ n)%nat ∧ (rest = [] → at_ = 0%nat) ∧
    ∀ k, (k < n)%nat → heard_by tr g k = hears k (dn ++ if decide (k < at_)%nat then take 1 rest else []) }.
Lemma cinv_run progs ks tr : ∀ s, qsteps (proc0 progs ks) tr s → cinv progs (length ks) tr s.
Proof.
  induction tr as [|a tr IH] using rev_ind; intros s H.
  - inversion H; subst. split; [done|cbn; by rewrite map_length|]. intros g prog Hg. exists 0%nat, [], prog.
    cbn [q_callers proc0]. rewrite list_lookup_fmap, Hg. split; [done|]. split; [done|]. split; [done|]. split; [lia|]. split; [done|].
    intros k Hk. done.
  - apply qsteps_snoc in H as (m & Hm & Hs). specialize (IH m Hm) as [I1 I2 I3].
    inversion Hs as [cs sk g at_ c rest x x' Ha Hg Hk Ht|cs sk g c rest Ha Hg|cs sk k b p p' Ha Hk Hn Hp|cs sk k b o l l' Ha Hk Hn Hp|cs sk k b lc l l' Ha Hk Hn Hp|cs sk k b l l' Ha Hk Hn Hp]; subst; cbn [q_sinks q_callers] in *.
    + split; cbn [q_sinks q_callers]; [by rewrite insert_length|by rewrite insert_length|]. intros g' prog Hp.
      destruct (I3 g' prog Hp) as (at' & dn & rest' & E1 & E2 & E3 & E4 & E5 & E6).
      pose proof (lookup_lt_Some _ _ _ Hk) as Lk. pose proof (lookup_lt_Some _ _ _ Hg) as Lg.
      destruct (decide (g = g')) as [<-|Hne].
      * rewrite Hg in E1. injection E1 as <- <-. exists (S at_), dn, (c :: rest). rewrite list_lookup_insert by done.
        split; [done|]. split; [done|]. split; [rewrite returned_snoc; lia|]. split; [lia|]. split; [done|].
        intros k Hkl. rewrite heard_by_snoc, E6 by done. destruct (decide (at_ = k)) as [<-|Hnk].
        -- rewrite (decide_False (P := (at_ < at_)%nat)) by lia. rewrite (decide_True (P := (at_ < S at_)%nat)) by lia.
           rewrite decide_True by done. rewrite app_nil_r. unfold hears. by rewrite map_app.
        -- rewrite (decide_False (P := g = g ∧ at_ = k)), app_nil_r by (intros [_ ?]; lia). by repeat case_decide; try lia.
      * exists at', dn, rest'. rewrite list_lookup_insert_ne by done. split; [done|]. split; [done|]. split; [rewrite returned_snoc; lia|].
        split; [done|]. split; [done|]. intros k Hkl. rewrite heard_by_snoc, decide_False, app_nil_r by (intros [? _]; congruence). by apply E6.
    + split; cbn [q_sinks q_callers]; [done|by rewrite insert_length|]. intros g' prog Hp. pose proof (lookup_lt_Some _ _ _ Hg) as Lg.
      destruct (I3 g' prog Hp) as (at' & dn & rest' & E1 & E2 & E3 & E4 & E5 & E6).
      destruct (decide (g = g')) as [<-|Hne].
      * rewrite Hg in E1. injection E1 as <- <-. exists 0%nat, (dn ++ [c]), rest. rewrite list_lookup_insert by done.
        split; [done|]. split; [by rewrite <- app_assoc|]. split; [rewrite returned_snoc, decide_True, app_length by done; cbn; lia|].
        split; [lia|]. split; [done|]. intros k Hkl. rewrite heard_by_snoc, app_nil_r, E6 by done.
        rewrite decide_True by lia. by rewrite app_nil_r.
      * exists at', dn, rest'. rewrite list_lookup_insert_ne by done. rewrite returned_snoc, decide_False by done.
        split; [done|]. split; [done|]. split; [lia|]. split; [done|]. split; [done|].
        intros k Hkl. rewrite heard_by_snoc, app_nil_r. by apply E6.
    + split; cbn [q_sinks q_callers]; [by rewrite insert_length|done|]. intros g prog Hg.
      destruct (I3 g prog Hg) as (at' & dn & rest' & E1 & E2 & E3 & E4 & E5 & E6). exists at', dn, rest'.
      rewrite returned_snoc. split; [done|]. split; [done|]. split; [lia|]. split; [done|]. split; [done|].
      intros j Hj. rewrite heard_by_snoc, app_nil_r. by apply E6.
    + split; cbn [q_sinks q_callers]; [by rewrite insert_length|done|]. intros g prog Hg.
      destruct (I3 g prog Hg) as (at' & dn & rest' & E1 & E2 & E3 & E4 & E5 & E6). exists at', dn, rest'.
      rewrite returned_snoc. split; [done|]. split; [done|]. split; [lia|]. split; [done|]. split; [done|].
      intros j Hj. rewrite heard_by_snoc, app_nil_r. by apply E6.
    + split; cbn [q_sinks q_callers]; [by rewrite insert_length|done|]. intros g prog Hg.
      destruct (I3 g prog Hg) as (at' & dn & rest' & E1 & E2 & E3 & E4 & E5 & E6). exists at', dn, rest'.
      rewrite returned_snoc. split; [done|]. split; [done|]. split; [lia|]. split; [done|]. split; [done|].
      intros j Hj. rewrite heard_by_snoc, app_nil_r. by apply E6.
    + split; cbn [q_sinks q_callers]; [by rewrite insert_length|done|]. intros g prog Hg.
      destruct (I3 g prog Hg) as (at' & dn & rest' & E1 & E2 & E3 & E4 & E5 & E6). exists at', dn, rest'.
      rewrite returned_snoc. split; [done|]. split; [done|]. split; [lia|]. split; [done|]. split; [done|].
      intros j Hj. rewrite heard_by_snoc, app_nil_r. by apply E6.
Qed.

(** each sink is told a beginning of each goroutine's calls, in order: those
    that returned and at most the one in progress, earlier sinks first *)
Lemma thm_each_caller progs ks tr s : qsteps (proc0 progs ks) tr s → ∀ g prog, progs !! g = Some prog →
  ∀ k, (k < length ks)%nat → ∃ m, told_by tr g k = tells_sink k (take m prog) ∧
    (returned tr g ≤ m ≤ S (returned tr g))%nat ∧ (m ≤ length prog)%nat ∧
    ∀ k', (k < k' < length ks)%nat → (length (told_by tr g k') ≤ m)%nat.
Proof.
  intros H g prog Hg k Hk. destruct (ci_call _ _ _ _ (cinv_run _ _ _ _ H) g prog Hg) as (at_ & dn & rest & E1 & -> & -> & E4 & E5 & E6).
  exists (length dn + if decide (k < at_)%nat then length (take 1 rest) else 0)%nat. split.
  { unfold told_by. rewrite E6, hears_tells by done. f_equal. rewrite firstn_app_2. f_equal. case_decide; [|done]. by destruct rest. }
  pose proof (take_length rest 1) as Et. split; [case_decide; lia|]. split; [rewrite app_length; case_decide; lia|].
  intros k' Hk'. unfold told_by. rewrite map_length, E6 by lia. unfold hears. rewrite map_length, app_length.
  repeat case_decide; change (length (@nil scall)) with 0%nat; lia.
Qed.
Lemma thm_returned_told progs ks tr s : qsteps (proc0 progs ks) tr s → ∀ g prog, progs !! g = Some prog → returned tr g = length prog →
  ∀ k, (k < length ks)%nat → told_by tr g k = tells_sink k prog.
Proof.
  intros H g prog Hg Hr k Hk. destruct (thm_each_caller _ _ _ _ H g prog Hg k Hk) as (m & -> & Hm & Hl & _).
  rewrite take_ge by lia. done.
Qed.

Lemma returned_heard progs ks tr s : qsteps (proc0 progs ks) tr s → ∀ g prog, progs !! g = Some prog → returned tr g = length prog →
  ∀ k, (k < length ks)%nat → heard_by tr g k = hears k prog.
Proof.
  intros H g prog Hg Hr k Hk. destruct (ci_call _ _ _ _ (cinv_run _ _ _ _ H) g prog Hg) as (at_ & dn & rest & E1 & -> & E3 & E4 & E5 & E6).
  rewrite E3, app_length in Hr. destruct rest; [|cbn in Hr; lia]. rewrite E6 by done. f_equal. by destruct (decide (k < at_)%nat).
Qed.

Lemma perm_of_eq {A} (a b : list A) : a = b → a ≡ₚ b.
Proof. by intros ->. Qed.
(** nothing else is told *)
Lemma heard_split progs ks tr s : qsteps (proc0 progs ks) tr s → ∀ k,
  heard tr k ≡ₚ concat (map (λ g, heard_by tr g k) (seq 0 (length progs))).
Proof.
  intros H k.
  assert (Hg : Forall (λ a, match a with QEmit g _ _ _ => (g < length progs)%nat | _ => True end) tr).
  { revert s H. induction tr as [|a tr IH] using rev_ind; intros s H; [constructor|].
    apply qsteps_snoc in H as (m & Hm & Hs). apply Forall_app. split; [by eapply IH|]. constructor; [|constructor].
    pose proof (cinv_run _ _ _ _ Hm) as [_ I2 _].
    inversion Hs as [cs sk g at_ c rest x x' Ha Hg Hk Ht| | | | |]; subst; try done. apply lookup_lt_Some in Hg. cbn in *. lia. }
  clear H. induction tr as [|a tr IH] using rev_ind.
  { change (heard [] k) with (@nil (cmd * option fresh_err)). symmetry. apply Permutation_nil_r. induction (seq 0 (length progs)); [done|]. exact IHl. }
  apply Forall_app in Hg as [Hg Ha]. apply Forall_cons in Ha as [Ha _]. rewrite heard_snoc, IH by done.
  destruct a as [g k' c e| | | | |]; try (rewrite app_nil_r; apply perm_of_eq; f_equal; apply map_ext; intros; by rewrite heard_by_snoc, app_nil_r).
  case_decide as Hk.
  - subst k'. clear IH Hg.
    assert (E : seq 0 (length progs) = seq 0 g ++ g :: seq (S g) (length progs - S g)).
    { replace (length progs) with (g + S (length progs - S g))%nat at 1 by lia. rewrite seq_app. done. }
    rewrite E, !map_app, !concat_app. cbn [map concat].
    assert (Ex : ∀ l, g ∉ l → map (λ g', heard_by (tr ++ [QEmit g k c e]) g' k) l = map (λ g', heard_by tr g' k) l).
    { intros l Hl. apply map_ext_in. intros g' Hg'. rewrite heard_by_snoc, decide_False, app_nil_r; [done|]. intros [-> _]. apply Hl. by apply elem_of_list_In. }
    rewrite !Ex by (rewrite elem_of_seq; lia). rewrite heard_by_snoc, decide_True by done.
    rewrite <- !app_assoc. apply Permutation_app_head, Permutation_app_head. apply Permutation_app_comm.
  - rewrite app_nil_r. apply perm_of_eq. f_equal. apply map_ext. intros g'. rewrite heard_by_snoc, decide_False, app_nil_r; [done|]. by intros [_ ?].
Qed.
Lemma thm_heard_all progs ks tr s : qsteps (proc0 progs ks) tr s → all_returned progs tr → ∀ k, (k < length ks)%nat →
  heard tr k ≡ₚ concat (map (hears k) progs).
Proof.
  intros H Ha k Hk. rewrite (heard_split _ _ _ _ H). apply perm_of_eq. f_equal.
  apply list_eq. intros g. rewrite !list_lookup_fmap. destruct (progs !! g) as [prog|] eqn:Hg.
  - pose proof (lookup_lt_Some _ _ _ Hg) as L. rewrite lookup_seq_lt by done. cbn. f_equal. eapply returned_heard; eauto.
  - rewrite lookup_seq_ge by (by apply lookup_ge_None in Hg). done.
Qed.

Lemma thm_told_all progs ks tr s : qsteps (proc0 progs ks) tr s → all_returned progs tr → ∀ k, (k < length ks)%nat →
  told tr k ≡ₚ concat (map (tells_sink k) progs).
Proof.
  intros H Ha k Hk. unfold told. rewrite (thm_heard_all _ _ _ _ H Ha k Hk), concat_map, map_map. apply perm_of_eq. f_equal.
  apply map_ext. intros. apply hears_tells.
Qed.

(** ** Sinks *)
Lemma lsteps_one o s a s' : lsteps o s [a] s' ↔ lstep o s a s'.
Proof.
  split; [|by repeat econstructor]. intros H. inversion H; subst.
  match goal with H : lsteps _ _ [] _ |- _ => inversion H; subst end. done.
Qed.
Lemma poll_part_snoc k tr a : poll_part k (tr ++ [a]) = poll_part k tr ++ match a with
  | QEmit _ k' c _ => if decide (k' = k) then [PEmit c] else []
  | QPoll k' a => if decide (k' = k) then [a] else []
  | _ => [] end.
Proof. unfold poll_part. rewrite omap_app. f_equal. destruct a; cbn; try done; by case_decide. Qed.
Lemma statsd_part_snoc k tr a : statsd_part k (tr ++ [a]) = statsd_part k tr ++ match a with
  | QEmit _ k' c _ => if decide (k' = k) then [AEmit c] else []
  | QStatsd k' a => if decide (k' = k) then [a] else []
  | _ => [] end.
Proof. unfold statsd_part. rewrite omap_app. f_equal. destruct a; cbn; try done; by case_decide. Qed.

Lemma librato_part_snoc k tr a : librato_part k (tr ++ [a]) = librato_part k tr ++ match a with
  | QEmit _ k' c _ => if decide (k' = k) then [GEmit (lib_cmd c).1 (lib_cmd c).2] else []
  | QLibrato k' a => if decide (k' = k) then [a] else []
  | _ => [] end.
Proof. unfold librato_part. rewrite omap_app. f_equal. destruct a; cbn; try done; by case_decide. Qed.
Lemma bugsnag_part_snoc k tr a : bugsnag_part k (tr ++ [a]) = bugsnag_part k tr ++ match a with
  | QEmit _ k' c e => if decide (k' = k) then match bug_cmd c e with Some x => [BEnqueue x] | None => [] end else []
  | QBugsnag k' a => if decide (k' = k) then [a] else []
  | _ => [] end.
Proof. unfold bugsnag_part. rewrite omap_app. f_equal. destruct a as [g k' c e| | | | |]; cbn; try done; case_decide; try done. by destruct (bug_cmd c e). Qed.

Lemma gosteps_one c g a g' : gosteps c g [a] g' ↔ gostep c g a g'.
Proof.
  split; [|intros; econstructor; [done|constructor]]. intros H. inversion H as [|? ? m ? ? H1 H2]; subst. by inversion H2; subst.
Qed.
Lemma bsteps_snoc s tr a m s' : bsteps s tr m → bstep m a s' → bsteps s (tr ++ [a]) s'.
Proof. induction 1; intros; cbn; econstructor; eauto. constructor. Qed.

(** how the sink at [k] got from [x] to [y] *)
Definition ksteps (k : nat) (tr : list qact) (x y : ksink) : Prop :=
  match x, y with
  | KPoll p, KPoll p' => psteps p (poll_part k tr) p'
  | KStatsd o l, KStatsd o' l' => o = o' ∧ lsteps o l (statsd_part k tr) l'
  | KLibrato c l, KLibrato c' l' => c = c' ∧ gosteps c l (librato_part k tr) l'
  | KBugsnag b, KBugsnag b' => bsteps b (bugsnag_part k tr) b'
  | KOther l, KOther l' => l' = l ++ told tr k
  | _, _ => False
  end.
Lemma ksteps_refl k x : ksteps k [] x x.
Proof. destruct x; cbn; [constructor|split; [done|constructor]|split; [done|constructor]|constructor|by rewrite app_nil_r]. Qed.
Lemma ksteps_other k tr a x y : ksteps k tr x y →
  poll_part k (tr ++ [a]) = poll_part k tr → statsd_part k (tr ++ [a]) = statsd_part k tr →
  librato_part k (tr ++ [a]) = librato_part k tr → bugsnag_part k (tr ++ [a]) = bugsnag_part k tr → told (tr ++ [a]) k = told tr k → ksteps k (tr ++ [a]) x y.
Proof. intros H E1 E2 E3 E4 E5. destruct x, y; cbn in *; try done; by rewrite ?E1, ?E2, ?E3, ?E4, ?E5. Qed.
Lemma sinks_run s tr s' : qsteps s tr s' → length (q_sinks s') = length (q_sinks s) ∧
  ∀ k x, q_sinks s !! k = Some x → ∃ y, q_sinks s' !! k = Some y ∧ ksteps k tr x y.
Proof.
  revert s'. induction tr as [|a tr IH] using rev_ind; intros s' H.
  { inversion H; subst. split; [done|]. intros k x Hx. exists x. split; [done|apply ksteps_refl]. }
  apply qsteps_snoc in H as (m & Hm & Hs). specialize (IH m Hm) as [Il I].
  inversion Hs as [cs sk g at_ c rest x x' Ha Hg Hk Ht|cs sk g c rest Ha Hg|cs sk k b p p' Ha Hk Hn Hp|cs sk k b o l l' Ha Hk Hn Hp|cs sk k b lc l l' Ha Hk Hn Hp|cs sk k b l l' Ha Hk Hn Hp]; subst; cbn [q_sinks] in *.
  - split; [by rewrite insert_length|]. intros j y0 Hy. destruct (I j y0 Hy) as (y & Ey & Hst). destruct (decide (at_ = j)) as [<-|Hne].
    + rewrite list_lookup_insert by (by eapply lookup_lt_Some). rewrite Hk in Ey. injection Ey as <-. exists x'. split; [done|].
      destruct y0 as [p0|o0 l0|c0 l0|b0|g0]; inversion Ht; subst; cbn in Hst |- *; try done.
      * rewrite poll_part_snoc, decide_True by done. apply psteps_app. eexists. split; [done|by apply psteps_one].
      * destruct Hst as [-> Hst]. split; [done|]. rewrite statsd_part_snoc, decide_True by done. apply lsteps_app. eexists. split; [done|by apply lsteps_one].
      * destruct Hst as [-> Hst]. split; [done|]. rewrite librato_part_snoc, decide_True by done. eapply gosteps_app; [done|by apply gosteps_one].
      * rewrite bugsnag_part_snoc, decide_True by done. case_match; simplify_eq. by eapply bsteps_snoc.
      * rewrite bugsnag_part_snoc, decide_True by done. case_match; simplify_eq. by rewrite app_nil_r.
      * rewrite told_snoc, decide_True by done. by rewrite Hst, app_assoc.
    + rewrite list_lookup_insert_ne by done. exists y. split; [done|].
      apply ksteps_other; [done|rewrite poll_part_snoc|rewrite statsd_part_snoc|rewrite librato_part_snoc|rewrite bugsnag_part_snoc|rewrite told_snoc]; by rewrite decide_False, app_nil_r.
  - split; [done|]. intros j y0 Hy. destruct (I j y0 Hy) as (y & Ey & Hst). exists y. split; [done|].
    apply ksteps_other; [done|rewrite poll_part_snoc|rewrite statsd_part_snoc|rewrite librato_part_snoc|rewrite bugsnag_part_snoc|rewrite told_snoc]; by rewrite app_nil_r.
  - split; [by rewrite insert_length|]. intros j y0 Hy. destruct (I j y0 Hy) as (y & Ey & Hst). destruct (decide (k = j)) as [<-|Hne].
    + rewrite list_lookup_insert by (by eapply lookup_lt_Some). rewrite Hk in Ey. injection Ey as <-. exists (KPoll p'). split; [done|].
      destruct y0 as [p0|o0 l0|c0 l0|b0|g0]; cbn in Hst |- *; try done.
      rewrite poll_part_snoc, decide_True by done. apply psteps_app. eexists. split; [done|by apply psteps_one].
    + rewrite list_lookup_insert_ne by done. exists y. split; [done|].
      apply ksteps_other; [done|rewrite poll_part_snoc|rewrite statsd_part_snoc|rewrite librato_part_snoc|rewrite bugsnag_part_snoc|rewrite told_snoc]; by rewrite ?decide_False, app_nil_r.
  - split; [by rewrite insert_length|]. intros j y0 Hy. destruct (I j y0 Hy) as (y & Ey & Hst). destruct (decide (k = j)) as [<-|Hne].
    + rewrite list_lookup_insert by (by eapply lookup_lt_Some). rewrite Hk in Ey. injection Ey as <-. exists (KStatsd o l'). split; [done|].
      destruct y0 as [p0|o0 l0|c0 l0|b0|g0]; cbn in Hst |- *; try done. destruct Hst as [-> Hst]. split; [done|].
      rewrite statsd_part_snoc, decide_True by done. apply lsteps_app. eexists. split; [done|by apply lsteps_one].
    + rewrite list_lookup_insert_ne by done. exists y. split; [done|].
      apply ksteps_other; [done|rewrite poll_part_snoc|rewrite statsd_part_snoc|rewrite librato_part_snoc|rewrite bugsnag_part_snoc|rewrite told_snoc]; by rewrite ?decide_False, app_nil_r.
  - split; [by rewrite insert_length|]. intros j y0 Hy. destruct (I j y0 Hy) as (y & Ey & Hst). destruct (decide (k = j)) as [<-|Hne].
    + rewrite list_lookup_insert by (by eapply lookup_lt_Some). rewrite Hk in Ey. injection Ey as <-. exists (KLibrato lc l'). split; [done|].
      destruct y0 as [p0|o0 l0|c0 l0|b0|g0]; cbn in Hst |- *; try done. destruct Hst as [-> Hst]. split; [done|].
      rewrite librato_part_snoc, decide_True by done. eapply gosteps_app; [done|by apply gosteps_one].
    + rewrite list_lookup_insert_ne by done. exists y. split; [done|].
      apply ksteps_other; [done|rewrite poll_part_snoc|rewrite statsd_part_snoc|rewrite librato_part_snoc|rewrite bugsnag_part_snoc|rewrite told_snoc]; by rewrite ?decide_False, app_nil_r.
  - split; [by rewrite insert_length|]. intros j y0 Hy. destruct (I j y0 Hy) as (y & Ey & Hst). destruct (decide (k = j)) as [<-|Hne].
    + rewrite list_lookup_insert by (by eapply lookup_lt_Some). rewrite Hk in Ey. injection Ey as <-. exists (KBugsnag l'). split; [done|].
      destruct y0 as [p0|o0 l0|c0 l0|b0|g0]; cbn in Hst |- *; try done.
      rewrite bugsnag_part_snoc, decide_True by done. by eapply bsteps_snoc.
    + rewrite list_lookup_insert_ne by done. exists y. split; [done|].
      apply ksteps_other; [done|rewrite poll_part_snoc|rewrite statsd_part_snoc|rewrite librato_part_snoc|rewrite bugsnag_part_snoc|rewrite told_snoc]; by rewrite ?decide_False, app_nil_r.
Qed.

(** the steps of other sinks do not come from callers *)
Definition tame (tr : list qact) : Prop := Forall (λ a, match a with QPoll _ a => not_emit_p a | QStatsd _ a => not_emit_s a
  | QLibrato _ a => not_emit_l a | QBugsnag _ a => not_emit_b a | _ => True end) tr.
Lemma qsteps_tame s tr s' : qsteps s tr s' → tame tr.
Proof. induction 1 as [|s a m tr s' Hs _ IH]; [constructor|]. constructor; [|done]. by inversion Hs. Qed.
Lemma poll_part_told k tr : tame tr → poll_accepted (poll_part k tr) = told tr k.
Proof.
  induction 1 as [|a tr Ha _ IH]; [done|]. unfold poll_part, told, heard, poll_accepted in *. destruct a as [g k' c e|g|k' a|k' a|k' a|k' a]; cbn; try done.
  - case_decide; cbn; [by f_equal|done].
  - case_decide; cbn; [|done]. destruct a; try done.
Qed.
Lemma statsd_part_told k tr : tame tr → accepted (statsd_part k tr) = told tr k.
Proof.
  induction 1 as [|a tr Ha _ IH]; [done|]. unfold statsd_part, told, heard, accepted in *. destruct a as [g k' c e|g|k' a|k' a|k' a|k' a]; cbn; try done.
  - case_decide; cbn; [by f_equal|done].
  - case_decide; cbn; [|done]. destruct a; try done.
Qed.
Lemma librato_part_told k tr : tame tr → SLibrato.emitted (librato_part k tr) = for_librato (told tr k).
Proof.
  induction 1 as [|a tr Ha _ IH]; [done|]. unfold librato_part, told, heard in *. destruct a as [g k' c e|g|k' a|k' a|k' a|k' a]; cbn; try done.
  - case_decide; cbn; [|done]. rewrite IH. f_equal. by destruct c.
  - case_decide; cbn; [|done]. destruct a; try done.
Qed.
Lemma bugsnag_part_heard k tr : tame tr → enqueued (bugsnag_part k tr) = for_bugsnag (heard tr k).
Proof.
  induction 1 as [|a tr Ha _ IH]; [done|]. unfold bugsnag_part, heard, enqueued in *. destruct a as [g k' c e|g|k' a|k' a|k' a|k' a]; cbn; try done.
  - case_decide; cbn; [|done]. destruct c; cbn; try done. destruct e as [[]|]; cbn; [by f_equal|done].
  - case_decide; cbn; [|done]. destruct a; try done.
Qed.
Lemma librato_part_app k a b : librato_part k (a ++ b) = librato_part k a ++ librato_part k b.
Proof. apply omap_app. Qed.
Lemma bugsnag_part_app k a b : bugsnag_part k (a ++ b) = bugsnag_part k a ++ bugsnag_part k b.
Proof. apply omap_app. Qed.
Lemma poll_part_app k a b : poll_part k (a ++ b) = poll_part k a ++ poll_part k b.
Proof. apply omap_app. Qed.
Lemma statsd_part_app k a b : statsd_part k (a ++ b) = statsd_part k a ++ statsd_part k b.
Proof. apply omap_app. Qed.

(** the sinks' own theorems apply *)
Lemma thm_sink_parts progs ks tr s : qsteps (proc0 progs ks) tr s → ∀ k,
  (∀ d retain, ks !! k = Some (KPoll (pst0 d retain)) →
     ∃ p, q_sinks s !! k = Some (KPoll p) ∧ psteps (pst0 d retain) (poll_part k tr) p ∧ poll_accepted (poll_part k tr) = told tr k) ∧
  (∀ o, ks !! k = Some (KStatsd o lst0) →
     ∃ l, q_sinks s !! k = Some (KStatsd o l) ∧ lsteps o lst0 (statsd_part k tr) l ∧ accepted (statsd_part k tr) = told tr k) ∧
  (∀ c, ks !! k = Some (KLibrato c lgo0) →
     ∃ g, q_sinks s !! k = Some (KLibrato c g) ∧ gosteps c lgo0 (librato_part k tr) g ∧ SLibrato.emitted (librato_part k tr) = for_librato (told tr k)) ∧
  (ks !! k = Some (KBugsnag bq0) →
     ∃ b, q_sinks s !! k = Some (KBugsnag b) ∧ bsteps bq0 (bugsnag_part k tr) b ∧ enqueued (bugsnag_part k tr) = for_bugsnag (heard tr k)) ∧
  (ks !! k = Some (KOther []) → q_sinks s !! k = Some (KOther (told tr k))).
Proof.
  intros H k. pose proof (qsteps_tame _ _ _ H) as Ht. destruct (sinks_run _ _ _ H) as [_ I]. split_and!.
  - intros d r E. destruct (I k _ E) as ([p|o l|c l|b|l] & Ey & Hk); cbn in Hk; try done. exists p. auto using poll_part_told.
  - intros o E. destruct (I k _ E) as ([p|o' l|c l|b|l] & Ey & Hk); cbn in Hk; try done. destruct Hk as [<- Hk]. exists l. auto using statsd_part_told.
  - intros c E. destruct (I k _ E) as ([p|o' l|c' l|b|l] & Ey & Hk); cbn in Hk; try done. destruct Hk as [<- Hk]. exists l. auto using librato_part_told.
  - intros E. destruct (I k _ E) as ([p|o' l|c' l|b|l] & Ey & Hk); cbn in Hk; try done. exists b. auto using bugsnag_part_heard.
  - intros E. destruct (I k _ E) as ([p|o l|c l|b|l] & Ey & Hk); cbn in Hk; try done. by rewrite Ey, Hk.
Qed.
