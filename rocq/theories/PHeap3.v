(** * From the separation logic to plain statements: Clone and Merge *)
From Verif Require Export PHeap2.
#[local] Open Scope Z_scope.

#[local] Arguments cells_maps : simpl never.
#[local] Arguments cells_job : simpl never.

(** ** shows is monotone and local *)
Lemma same_entries_impl {A B} (R R' : A → B → Prop) m m' :
  (∀ a b, R a b → R' a b) → same_entries R m m' → same_entries R' m m'.
Proof. intros H Hs k. specialize (Hs k). destruct (m !! k), (m' !! k); auto. Qed.

Lemma shows_maps_mono h h' hm am : h ⊆ h' → shows_maps h hm am → shows_maps h' hm am.
Proof.
  intros Hs ((pt & Hpt & Ht) & Hg & He & (pr & Hpr & Hr)).
  split_and!; [exists pt|..|exists pr]; try split; try (by eapply lookup_weaken).
  - eapply same_entries_impl; [|exact Ht]. intros ??. unfold shows_timer. intros. by eapply lookup_weaken.
  - eapply same_entries_impl; [|exact Hr]. intros ??. unfold shows_errc. intros. by eapply lookup_weaken.
Qed.
Lemma shows_job_mono h h' p j : h ⊆ h' → shows_job h p j → shows_job h' p j.
Proof.
  intros Hs (maps & Hp & Hm). exists maps. split; [by eapply lookup_weaken|by eapply shows_maps_mono].
Qed.
Lemma shows_mono h h' p a : h ⊆ h' → shows h p a → shows h' p a.
Proof.
  intros Hs (jobs & maps & pm & Hp & Hj & He & Hm). exists jobs, maps, pm.
  split_and!; [by eapply lookup_weaken|by eapply lookup_weaken| |by eapply shows_maps_mono].
  eapply same_entries_impl; [|exact He]. intros ??. by apply shows_job_mono.
Qed.

Lemma elem_of_entries {A} (m : gmap string A) x : x ∈ entries m ↔ ∃ k, m !! k = Some x.
Proof.
  unfold entries. rewrite elem_of_list_fmap. split.
  - intros ([k y] & -> & H%elem_of_map_to_list). by exists k.
  - intros [k H]. exists (k, x). split; [done|]. by apply elem_of_map_to_list.
Qed.
Lemma same_entries_in {A B} (R R' : A → B → Prop) m m' :
  (∀ a b, a ∈ entries m → R a b → R' a b) → same_entries R m m' → same_entries R' m m'.
Proof.
  intros H Hs k. specialize (Hs k). destruct (m !! k) as [a|] eqn:Ha; [|done].
  destruct (m' !! k); [|done]. apply H; [|done]. apply elem_of_entries. eauto.
Qed.

Definition agree (h h' : heap) (l : list addr) : Prop := ∀ x, x ∈ l → h' !! x = h !! x.
Lemma agree_cons h h' x l : agree h h' (x :: l) ↔ h' !! x = h !! x ∧ agree h h' l.
Proof.
  unfold agree. split.
  - intros H. split; [apply H; left|]. intros y Hy. apply H. by right.
  - intros [H1 H2] y [->|Hy]%elem_of_cons; auto.
Qed.
Lemma agree_app h h' l1 l2 : agree h h' (l1 ++ l2) ↔ agree h h' l1 ∧ agree h h' l2.
Proof. unfold agree. setoid_rewrite elem_of_app. naive_solver. Qed.
Lemma agree_in h h' l x : agree h h' l → x ∈ l → h' !! x = h !! x.
Proof. intros H. apply H. Qed.

Lemma cells_maps_local h h' hm : agree h h' (cells_maps h hm) → cells_maps h' hm = cells_maps h hm.
Proof.
  unfold cells_maps. intros H. rewrite !agree_app !agree_cons in H.
  destruct H as ((H1 & H2 & H3 & H4 & _) & H5 & H6). rewrite H1 H4. done.
Qed.
Lemma cells_job_local h h' p : agree h h' (cells_job h p) → cells_job h' p = cells_job h p.
Proof.
  unfold cells_job. intros H. apply agree_cons in H as [Hp H]. rewrite Hp. f_equal.
  destruct (h !! p) as [[]|]; try done. by apply cells_maps_local.
Qed.
Lemma concat_local (f g : addr → list addr) h h' l :
  (∀ p, agree h h' (f p) → g p = f p) → agree h h' (concat (f <$> l)) → concat (g <$> l) = concat (f <$> l).
Proof.
  intros Hfg. induction l as [|p l IH]; cbn; [done|]. intros [H1 H2]%agree_app.
  by rewrite Hfg ?IH.
Qed.
Lemma cells_local h h' p : agree h h' (cells h p) → cells h' p = cells h p.
Proof.
  unfold cells. intros H. apply agree_cons in H as [Hp H]. rewrite Hp. f_equal.
  destruct (h !! p) as [[]|]; try done. apply agree_cons in H as [Hj H]. apply agree_app in H as [H1 H2].
  rewrite Hj. f_equal. f_equal; [|by apply cells_maps_local].
  destruct (h !! hi_jobs i) as [[]|]; try done. eapply concat_local; [|exact H1]. apply cells_job_local.
Qed.

Lemma shows_maps_local h h' hm am :
  agree h h' (cells_maps h hm) → shows_maps h hm am → shows_maps h' hm am.
Proof.
  unfold cells_maps. intros H ((pt & Hpt & Ht) & Hg & He & (pr & Hpr & Hr)).
  rewrite !agree_app !agree_cons Hpt Hpr in H. destruct H as ((H1 & H2 & H3 & H4 & _) & H5 & H6).
  split_and!; [exists pt|congruence|congruence|exists pr]; split; try congruence.
  - eapply same_entries_in; [|exact Ht]. unfold shows_timer. intros a b Ha <-. by apply H5.
  - eapply same_entries_in; [|exact Hr]. unfold shows_errc. intros a b Ha <-. by apply H6.
Qed.
Lemma shows_job_local h h' p j : agree h h' (cells_job h p) → shows_job h p j → shows_job h' p j.
Proof.
  unfold cells_job. intros H (maps & Hp & Hm). apply agree_cons in H as [H1 H2]. rewrite Hp in H2.
  exists maps. split; [congruence|]. by eapply shows_maps_local.
Qed.
Lemma elem_of_concat_fmap (f : addr → list addr) l x y : y ∈ l → x ∈ f y → x ∈ concat (f <$> l).
Proof.
  intros Hy Hx. induction l as [|z l IH]; [by apply elem_of_nil in Hy|].
  cbn. apply elem_of_app. apply elem_of_cons in Hy as [->|Hy]; [by left|right; auto].
Qed.
Lemma shows_local h h' p a : agree h h' (cells h p) → shows h p a → shows h' p a.
Proof.
  unfold cells. intros H (jobs & maps & pm & Hp & Hj & He & Hm).
  apply agree_cons in H as [H1 H]. rewrite Hp in H. cbn in H. apply agree_cons in H as [H2 H].
  rewrite Hj in H. apply agree_app in H as [H3 H4].
  exists jobs, maps, pm. split_and!; [congruence|congruence| |by eapply shows_maps_local].
  eapply same_entries_in; [|exact He]. intros q j Hq. apply shows_job_local.
  intros x Hx. apply H3. by eapply elem_of_concat_fmap.
Qed.

(** shown cells exist *)
Lemma shows_maps_dom h hm am x : shows_maps h hm am → x ∈ cells_maps h hm → is_Some (h !! x).
Proof.
  intros ((pt & Hpt & Ht) & Hg & He & (pr & Hpr & Hr)). unfold cells_maps. rewrite Hpt Hpr.
  rewrite !elem_of_app !elem_of_cons elem_of_nil !elem_of_entries.
  intros [[->|[->|[->|[->|[]]]]]|[[k Hk]|[k Hk]]]; eauto.
  - specialize (Ht k). rewrite Hk in Ht. destruct (am_timers am !! k); [|done]. eauto.
  - specialize (Hr k). rewrite Hk in Hr. destruct (am_errs am !! k); [|done]. eauto.
Qed.
Lemma shows_job_dom h p j x : shows_job h p j → x ∈ cells_job h p → is_Some (h !! x).
Proof.
  intros (maps & Hp & Hm). unfold cells_job. rewrite Hp. intros [->|Hx]%elem_of_cons; [eauto|].
  by eapply shows_maps_dom.
Qed.
Lemma elem_of_concat_fmap_inv (f : addr → list addr) l x : x ∈ concat (f <$> l) → ∃ y, y ∈ l ∧ x ∈ f y.
Proof.
  induction l as [|z l IH]; cbn; [by intros ?%elem_of_nil|].
  intros [H|H]%elem_of_app.
  - exists z. split; [left|done].
  - destruct (IH H) as (y & ? & ?). exists y. split; [by right|done].
Qed.
Lemma shows_dom h p a x : shows h p a → x ∈ cells h p → is_Some (h !! x).
Proof.
  intros (jobs & maps & pm & Hp & Hj & He & Hm). unfold cells. rewrite Hp. cbn. rewrite Hj.
  intros [->|[->|[Hx|Hx]%elem_of_app]%elem_of_cons]%elem_of_cons; eauto.
  - apply elem_of_concat_fmap_inv in Hx as (q & Hq & Hx). apply elem_of_entries in Hq as [k Hk].
    specialize (He k). rewrite Hk in He. destruct (ia_jobs a !! k); [|done]. by eapply shows_job_dom.
  - by eapply shows_maps_dom.
Qed.

(** ** ownership of a list of cells *)
Definition own_cells (l : list addr) : hP := ([∗ list] x ∈ l, ∃ c, x ↦ c)%I.
Program Definition fixed (f : heap → list addr) (l : list addr) : hP :=
  {| hprop_at h := ∀ h', h ⊆ h' → f h' ≡ₚ l |}.
Next Obligation. cbn. intros f l h1 h2 H Hs h' Hs'. apply H. by etrans. Qed.
Definition foot (f : heap → list addr) : hP := (∃ l, own_cells l ∧ fixed f l)%I.

Lemma own_cells_at l h : hprop_at (own_cells l) h → NoDup l ∧ ∀ x, x ∈ l → is_Some (h !! x).
Proof.
  revert h. induction l as [|x l IH]; intros h H.
  - split; [constructor|]. by intros x Hx%elem_of_nil.
  - unfold own_cells in H. rewrite big_sepL_cons in H || cbn in H.
    destruct H as (h1 & h2 & -> & Hd & [c Hc] & H2). cbn in Hc.
    destruct (IH h2 H2) as [Hnd Hin]. split.
    + constructor; [|done]. intros Hx. apply Hin in Hx as [c' Hc'].
      by eapply map_disjoint_spec in Hd; eauto.
    + intros y [->|Hy]%elem_of_cons.
      * exists c. by apply lookup_union_Some_l.
      * destruct (Hin y Hy) as [c' Hc']. exists c'. by apply lookup_union_Some_r.
Qed.

Lemma foot_at f h : hprop_at (foot f) h → NoDup (f h) ∧ ∀ x, x ∈ f h → is_Some (h !! x).
Proof.
  intros (l & Hl & Hf). cbn in Hf. apply own_cells_at in Hl as [Hnd Hin]. split.
  - by rewrite (Hf h (reflexivity h)).
  - intros x Hx. apply Hin. by rewrite -(Hf h (reflexivity h)).
Qed.
(** the footprint in a larger heap *)
Lemma foot_at' f h h' : hprop_at (foot f) h → h ⊆ h' →
  f h' ≡ₚ f h ∧ NoDup (f h) ∧ ∀ x, x ∈ f h → is_Some (h !! x).
Proof.
  intros H Hs. split; [|by apply foot_at]. destruct H as (l & Hl & Hf). cbn in Hf.
  rewrite (Hf h (reflexivity h)). by apply Hf.
Qed.

Lemma foot_sep f g : foot f ∗ foot g ⊢ foot (λ h, f h ++ g h).
Proof.
  apply hprop_entails_at. intros h (h1 & h2 & -> & Hd & (l1 & Hl1 & Hf1) & (l2 & Hl2 & Hf2)).
  exists (l1 ++ l2). split.
  - unfold own_cells. apply (proj1 (hprop_entails_at _ _) (proj2 (proj1 (bi.equiv_entails _ _) (big_sepL_app _ l1 l2)))).
    exists h1, h2. done.
  - cbn. intros h' Hs. apply Permutation_app; [apply Hf1|apply Hf2]; (etrans; [|exact Hs]).
    + apply map_union_subseteq_l.
    + by apply map_union_subseteq_r.
Qed.
Lemma foot_nil : ⊢ foot (λ _, []).
Proof.
  apply hprop_entails_at. intros h _. exists []. split; [done|]. by cbn.
Qed.
(** a cell and what follows from its contents *)
Lemma foot_cell p c (f : heap → list addr) (g : option cell → heap → list addr) :
  (∀ h, g (Some c) h = f h) → p ↦ c ∗ foot f ⊢ foot (λ h, p :: g (h !! p) h).
Proof.
  intros Hg. apply hprop_entails_at. intros h (h1 & h2 & -> & Hd & Hp & (l2 & Hl2 & Hf2)). cbn in Hp.
  exists (p :: l2). split.
  - exists h1, h2. split_and!; try done. by exists c.
  - cbn. intros h' Hs.
    assert (H1 : h1 ⊆ h') by (etrans; [apply map_union_subseteq_l|exact Hs]).
    assert (H2 : h2 ⊆ h') by (etrans; [by apply map_union_subseteq_r|exact Hs]).
    rewrite (lookup_weaken _ _ _ _ Hp H1) Hg. constructor. by apply Hf2.
Qed.
Lemma foot_ext f g : (∀ h, f h ≡ₚ g h) → foot f ⊢ foot g.
Proof.
  intros H. apply hprop_entails_at. intros h (l & Hl & Hf). exists l. split; [done|].
  cbn in *. intros h' Hs. rewrite -H. by apply Hf.
Qed.

Lemma foot_list (R : addr → hP) (cf : heap → addr → list addr) (l : list addr) :
  (∀ q, R q ⊢ foot (λ h, cf h q)) →
  ([∗ list] q ∈ l, R q) ⊢ foot (λ h, concat (cf h <$> l)).
Proof.
  intros HR. induction l as [|q l IH]; cbn.
  - iIntros "_". iApply foot_nil.
  - iIntros "[H1 H2]". iApply (foot_sep (λ h, cf h q) (λ h, concat (cf h <$> l))).
    iSplitL "H1"; [by iApply HR|by iApply IH].
Qed.
Lemma foot_entries {V} (R : addr → V → hP) (cf : heap → addr → list addr) (pm : gmap string addr) (m : gmap string V) :
  (∀ q v, R q v ⊢ foot (λ h, cf h q)) →
  ([∗ map] q;v ∈ pm;m, R q v) ⊢ foot (λ h, concat (cf h <$> entries pm)).
Proof.
  intros HR. iIntros "H". iApply (foot_list (λ q, ∃ v, R q v)%I).
  { intros q. iIntros "H". iDestruct "H" as (v) "H". by iApply HR. }
  unfold entries. rewrite big_sepL_fmap.
  rewrite -(big_opM_map_to_list (λ _ q, ∃ v, R q v)%I).
  rewrite big_sepM2_alt. iDestruct "H" as "[%Hk H]".
  assert (Hfst : fst <$> map_zip pm m = pm) by (by apply fst_map_zip, Hk).
  iEval (rewrite -Hfst). rewrite big_sepM_fmap.
  iApply (big_sepM_impl with "H"). iIntros "!>" (k [q v] _) "H". iExists v. done.
Qed.
Lemma concat_single (l : list addr) : concat ((λ x, [x]) <$> l) = l.
Proof. induction l as [|x l IH]; cbn; [done|]. by rewrite IH. Qed.

Lemma foot_pts p c : p ↦ c ⊢ foot (λ _, [p]).
Proof.
  iIntros "H".
  iApply (foot_cell p c (λ _, []) (λ _ _, [])); [done|]. iFrame. iApply foot_nil.
Qed.
Lemma foot_pmap_timers p m :
  pmap VTimers timer_rep p m ⊢ foot (λ h, p :: match h !! p with Some (VTimers pm) => entries pm | _ => [] end).
Proof.
  iIntros "H". iDestruct "H" as (pm) "[Hp Hm]".
  iApply (foot_cell p (VTimers pm) (λ h, concat ((λ _ x, [x]) h <$> entries pm))
    (λ o _, match o with Some (VTimers pm) => entries pm | _ => [] end)).
  { intros h. by rewrite concat_single. }
  iFrame. iApply (foot_entries with "Hm"). intros q v. apply foot_pts.
Qed.
Lemma foot_pmap_errs p m :
  pmap VErrs errc_rep p m ⊢ foot (λ h, p :: match h !! p with Some (VErrs pm) => entries pm | _ => [] end).
Proof.
  iIntros "H". iDestruct "H" as (pm) "[Hp Hm]".
  iApply (foot_cell p (VErrs pm) (λ h, concat ((λ _ x, [x]) h <$> entries pm))
    (λ o _, match o with Some (VErrs pm) => entries pm | _ => [] end)).
  { intros h. by rewrite concat_single. }
  iFrame. iApply (foot_entries with "Hm"). intros q v. apply foot_pts.
Qed.

#[local] Arguments entries : simpl never.
Lemma foot_maps hm am : maps_rep hm am ⊢ foot (λ h, cells_maps h hm).
Proof.
  iIntros "(Ht & Hg & He & Hr)".
  iApply (foot_ext (λ h,
    (hm_timers hm :: match h !! hm_timers hm with Some (VTimers pm) => entries pm | _ => [] end) ++
    [hm_gauges hm] ++ [hm_events hm] ++
    (hm_errs hm :: match h !! hm_errs hm with Some (VErrs pm) => entries pm | _ => [] end))).
  { intros h. unfold cells_maps. cbn. generalize (match h !! hm_timers hm with Some (VTimers pm) => entries pm | _ => [] end).
    intros l. constructor.
    by rewrite -!Permutation_middle. }
  iApply (foot_sep (λ h, hm_timers hm :: match h !! hm_timers hm with Some (VTimers pm) => entries pm | _ => [] end)).
  iSplitL "Ht"; [by iApply foot_pmap_timers|].
  iApply (foot_sep (λ h, [hm_gauges hm])). iSplitL "Hg"; [by iApply foot_pts|].
  iApply (foot_sep (λ h, [hm_events hm])). iSplitL "He"; [by iApply foot_pts|].
  by iApply foot_pmap_errs.
Qed.
Lemma foot_job p j : job_rep p j ⊢ foot (λ h, cells_job h p).
Proof.
  iIntros "H". iDestruct "H" as (maps) "[Hp Hm]".
  iApply (foot_cell p (VJob (mkjob maps j)) (λ h, cells_maps h maps)
    (λ o h, match o with Some (VJob j) => cells_maps h (hj_maps j) | _ => [] end)); [done|].
  iFrame. by iApply foot_maps.
Qed.
Lemma foot_ia p a : ia_rep p a ⊢ foot (λ h, cells h p).
Proof.
  iIntros "H". iDestruct "H" as (jobs maps) "(Hp & Hj & Hm)". iDestruct "Hj" as (pm) "[Hj Hjm]".
  iApply (foot_cell p (VIa (HIA (ia_start a) (ia_serial a) jobs maps)) (λ h, jobs ::
      match h !! jobs with Some (VJobs pm) => concat (cells_job h <$> entries pm) | _ => [] end ++ cells_maps h maps)
    (λ o h, match o with
       | Some (VIa i) => hi_jobs i ::
           (match h !! hi_jobs i with Some (VJobs pm) => concat (cells_job h <$> entries pm) | _ => [] end) ++
           cells_maps h (hi_maps i)
       | _ => []
       end)); [done|].
  iFrame "Hp".
  iApply (foot_cell jobs (VJobs pm) (λ h, concat (cells_job h <$> entries pm) ++ cells_maps h maps)
    (λ o h, match o with Some (VJobs pm) => concat (cells_job h <$> entries pm) | _ => [] end ++ cells_maps h maps)); [done|].
  iFrame "Hj". iApply (foot_sep (λ h, concat (cells_job h <$> entries pm))).
  iSplitL "Hjm"; [|by iApply foot_maps]. iApply (foot_entries with "Hjm"). apply foot_job.
Qed.

(** ** a representation shows its value *)
Lemma rep_entries {V} (R : addr → V → hP) (sh : heap → addr → V → Prop) pm (m : gmap string V) h :
  (∀ q v h, hprop_at (R q v) h → sh h q v) →
  (∀ h h' q v, h ⊆ h' → sh h q v → sh h' q v) →
  hprop_at ([∗ map] q;v ∈ pm;m, R q v)%I h → same_entries (sh h) pm m.
Proof.
  intros HR Hmono H k.
  pose proof (proj1 (hprop_entails_at _ _) (pm_keys R pm m) h H k) as Hk.
  destruct (pm !! k) as [q|] eqn:Hq; destruct (m !! k) as [v|] eqn:Hv.
  - pose proof (proj1 (hprop_entails_at _ _) (big_sepM2_lookup_acc (λ _ q v, R q v) pm m k q v Hq Hv) h H) as Hx.
    destruct Hx as (h1 & h2 & -> & Hd & H1 & _). eapply Hmono; [|by apply HR].
    apply map_union_subseteq_l.
  - destruct Hk as [Hk _]. destruct Hk; done.
  - destruct Hk as [_ Hk]. destruct Hk; done.
  - done.
Qed.
Lemma maps_shows hm am h : hprop_at (maps_rep hm am) h → shows_maps h hm am.
Proof.
  intros H.
  destruct H as (h1 & h' & -> & Hd1 & (pt & ht1 & ht2 & -> & Hdt & Ht1 & Ht2) & H).
  destruct H as (h2 & h'' & -> & Hd2 & Hg & H).
  destruct H as (h3 & h4 & -> & Hd3 & He & (pr & hr1 & hr2 & -> & Hdr & Hr1 & Hr2)).
  cbn in Ht1, Hg, He, Hr1.
  set (H := ht1 ∪ ht2 ∪ (h2 ∪ (h3 ∪ (hr1 ∪ hr2)))).
  assert (S1 : ht1 ⊆ H) by (etrans; [|apply map_union_subseteq_l]; apply map_union_subseteq_l).
  assert (S2 : ht2 ⊆ H) by (etrans; [|apply map_union_subseteq_l]; by apply map_union_subseteq_r).
  assert (T : h2 ∪ (h3 ∪ (hr1 ∪ hr2)) ⊆ H) by (by apply map_union_subseteq_r).
  assert (S3 : h2 ⊆ H) by (etrans; [|exact T]; apply map_union_subseteq_l).
  assert (T2 : h3 ∪ (hr1 ∪ hr2) ⊆ H) by (etrans; [|exact T]; by apply map_union_subseteq_r).
  assert (S4 : h3 ⊆ H) by (etrans; [|exact T2]; apply map_union_subseteq_l).
  assert (T3 : hr1 ∪ hr2 ⊆ H) by (etrans; [|exact T2]; by apply map_union_subseteq_r).
  assert (S5 : hr1 ⊆ H) by (etrans; [|exact T3]; apply map_union_subseteq_l).
  assert (S6 : hr2 ⊆ H) by (etrans; [|exact T3]; by apply map_union_subseteq_r).
  split_and!.
  - exists pt. split; [by eapply lookup_weaken|].
    eapply (rep_entries timer_rep shows_timer); [done| |eapply hprop_closed; [exact Ht2|done]].
    intros ????. unfold shows_timer. intros. by eapply lookup_weaken.
  - by eapply lookup_weaken.
  - by eapply lookup_weaken.
  - exists pr. split; [by eapply lookup_weaken|].
    eapply (rep_entries errc_rep shows_errc); [done| |eapply hprop_closed; [exact Hr2|done]].
    intros ????. unfold shows_errc. intros. by eapply lookup_weaken.
Qed.
Lemma job_shows p j h : hprop_at (job_rep p j) h → shows_job h p j.
Proof.
  intros (maps & h1 & h2 & -> & Hd & Hp & Hm). exists maps. split.
  - cbn in Hp. by apply lookup_union_Some_l.
  - eapply shows_maps_mono; [|by apply maps_shows]. by apply map_union_subseteq_r.
Qed.
Lemma ia_shows p a h : hprop_at (ia_rep p a) h → shows h p a.
Proof.
  intros (jobs & maps & h1 & h' & -> & Hd & Hp & (h2 & h3 & -> & Hd2 & (pm & hj1 & hj2 & -> & Hdj & Hj & Hjm) & Hm)).
  cbn in Hp, Hj.
  set (H := h1 ∪ (hj1 ∪ hj2 ∪ h3)).
  assert (T : hj1 ∪ hj2 ∪ h3 ⊆ H) by (by apply map_union_subseteq_r).
  exists jobs, maps, pm. split_and!.
  - by apply lookup_union_Some_l.
  - eapply lookup_weaken; [|exact T]. do 2 apply lookup_union_Some_l. done.
  - eapply (rep_entries job_rep shows_job); [intros; by apply job_shows|intros; by eapply shows_job_mono|].
    eapply hprop_closed; [exact Hjm|]. etrans; [|exact T]. etrans; [|apply map_union_subseteq_l].
    by apply map_union_subseteq_r.
  - eapply shows_maps_mono; [|by apply maps_shows]. etrans; [|exact T]. by apply map_union_subseteq_r.
Qed.

(** ** from plain heaps to representations *)
Definition own_in (h : heap) (l : list addr) : hP := ([∗ list] x ∈ l, ∃ c, ⌜h !! x = Some c⌝ ∗ x ↦ c)%I.
#[local] Arguments own_in : simpl never.
Definition restr (h : heap) (l : list addr) : heap := filter (λ xc, xc.1 ∈ l) h.

Lemma restr_lookup h l x : restr h l !! x = if decide (x ∈ l) then h !! x else None.
Proof.
  unfold restr. destruct (decide (x ∈ l)) as [Hx|Hx].
  - destruct (h !! x) as [c|] eqn:Hc.
    + by apply map_filter_lookup_Some.
    + apply map_filter_lookup_None. by left.
  - apply map_filter_lookup_None. right. by intros c _.
Qed.
Lemma restr_sub h l : restr h l ⊆ h.
Proof. apply map_filter_subseteq. Qed.

Lemma own_in_restr h l : NoDup l → (∀ x, x ∈ l → is_Some (h !! x)) → hprop_at (own_in h l) (restr h l).
Proof.
  induction l as [|x l IH]; intros Hnd Hin; [done|]. apply NoDup_cons in Hnd as [Hx Hnd].
  destruct (Hin x) as [c Hc]; [left|].
  exists ({[x := c]}), (restr h l). split_and!.
  - apply map_eq. intros y. rewrite restr_lookup. rewrite lookup_union restr_lookup.
    destruct (decide (y = x)) as [->|Hne].
    + rewrite decide_True; [|left]. rewrite lookup_singleton decide_False; [|done]. done.
    + rewrite lookup_singleton_ne; [|done].
      destruct (decide (y ∈ l)) as [Hy|Hy].
      * rewrite decide_True; [|by right]. rewrite decide_True; [|done]. symmetry. apply (left_id_L None (union_with (M := option cell) _)).
      * rewrite decide_False; [|by intros [?|?]%elem_of_cons]. by rewrite decide_False.
  - apply map_disjoint_singleton_l. by rewrite restr_lookup decide_False.
  - exists c. exists ∅, {[x := c]}. split_and!; try done.
    + by rewrite (left_id_L _ _).
    + apply map_disjoint_empty_l.
    + cbn. apply lookup_singleton.
  - apply IH; [done|]. intros y Hy. apply Hin. by right.
Qed.

Lemma own_in_app h l1 l2 : own_in h (l1 ++ l2) ⊣⊢ own_in h l1 ∗ own_in h l2.
Proof. apply big_sepL_app. Qed.
Lemma own_in_cons h x l c : h !! x = Some c → own_in h (x :: l) ⊢ x ↦ c ∗ own_in h l.
Proof.
  iIntros (Hx) "[H1 H2]". iDestruct "H1" as (c' Hc) "H". rewrite Hx in Hc. injection Hc as <-. iFrame.
Qed.
Lemma own_in_perm h l1 l2 : l1 ≡ₚ l2 → own_in h l1 ⊢ own_in h l2.
Proof. intros H. unfold own_in. by rewrite H. Qed.

Lemma own_entries {V} h (R : addr → V → hP) (sh : addr → V → Prop) (cf : addr → list addr) pm (m : gmap string V) :
  (∀ q v, sh q v → own_in h (cf q) ⊢ R q v) → same_entries sh pm m →
  own_in h (concat (cf <$> entries pm)) ⊢ [∗ map] q;v ∈ pm;m, R q v.
Proof.
  intros HR. revert m. induction pm as [|k q pm Hk IH] using map_ind; intros m Hs.
  - assert (m = ∅) as ->.
    { apply map_eq. intros k. specialize (Hs k). rewrite !lookup_empty in Hs *.
      by destruct (m !! k). }
    iIntros "_". by iApply big_sepM2_empty.
  - pose proof (Hs k) as Hsk. rewrite lookup_insert in Hsk. destruct (m !! k) as [v|] eqn:Hv; [|done].
    assert (m = <[k := v]> (delete k m)) as Hm by (by rewrite insert_delete).
    rewrite Hm. iIntros "H".
    iApply big_sepM2_insert; [done|by rewrite lookup_delete|].
    iDestruct (own_in_perm _ _ (cf q ++ concat (cf <$> entries pm)) with "H") as "H".
    { unfold entries. rewrite map_to_list_insert; [|done]. done. }
    rewrite own_in_app. iDestruct "H" as "[H1 H2]". iSplitL "H1"; [by iApply HR|].
    iApply (IH with "H2"). intros k'. specialize (Hs k'). destruct (decide (k' = k)) as [->|Hne].
    + by rewrite Hk lookup_delete.
    + rewrite lookup_insert_ne in Hs; [|done]. by rewrite lookup_delete_ne.
Qed.

Lemma own_maps h hm am : shows_maps h hm am → own_in h (cells_maps h hm) ⊢ maps_rep hm am.
Proof.
  intros ((pt & Hpt & Ht) & Hg & He & (pr & Hpr & Hr)). unfold cells_maps. rewrite Hpt Hpr.
  change (own_in h (hm_timers hm :: hm_gauges hm :: hm_events hm :: hm_errs hm :: (entries pt ++ entries pr)) ⊢ maps_rep hm am).
  iIntros "H".
  iDestruct (own_in_cons with "H") as "[Ht H]"; [done|].
  iDestruct (own_in_cons with "H") as "[Hg H]"; [done|].
  iDestruct (own_in_cons with "H") as "[He H]"; [done|].
  iDestruct (own_in_cons with "H") as "[Hr H]"; [done|].
  rewrite own_in_app. iDestruct "H" as "[Ht' Hr']". iFrame "Hg He".
  iSplitL "Ht Ht'".
  - iExists pt. iFrame "Ht". iApply (own_entries h timer_rep (shows_timer h) (λ x, [x])); [|exact Ht|].
    { intros q v Hq. iIntros "H". iDestruct (own_in_cons with "H") as "[H _]"; [done|]. done. }
    by rewrite concat_single.
  - iExists pr. iFrame "Hr". iApply (own_entries h errc_rep (shows_errc h) (λ x, [x])); [|exact Hr|].
    { intros q v Hq. iIntros "H". iDestruct (own_in_cons with "H") as "[H _]"; [done|]. done. }
    by rewrite concat_single.
Qed.
Lemma own_job h p j : shows_job h p j → own_in h (cells_job h p) ⊢ job_rep p j.
Proof.
  intros (maps & Hp & Hm). unfold cells_job. rewrite Hp. iIntros "H".
  iDestruct (own_in_cons with "H") as "[Hp H]"; [done|]. iExists maps. iFrame. by iApply own_maps.
Qed.
Lemma own_ia h p a : shows h p a → own_in h (cells h p) ⊢ ia_rep p a.
Proof.
  intros (jobs & maps & pm & Hp & Hj & He & Hm). unfold cells. rewrite Hp. cbn. rewrite Hj. iIntros "H".
  iDestruct (own_in_cons with "H") as "[Hp H]"; [done|].
  iDestruct (own_in_cons with "H") as "[Hj H]"; [done|].
  rewrite own_in_app. iDestruct "H" as "[Hjm Hm]". iExists jobs, maps. iFrame "Hp".
  iSplitR "Hm"; [|by iApply own_maps]. iExists pm. iFrame "Hj".
  iApply (own_entries h job_rep (shows_job h) (cells_job h)); [|done|done]. intros q v. apply own_job.
Qed.

(** an unshared aggregation is represented on its own cells *)
Lemma ia_rep_cells h p a : shows h p a → unshared h p → hprop_at (ia_rep p a) (restr h (cells h p)).
Proof.
  intros Hs Hu. apply (proj1 (hprop_entails_at _ _) (own_ia h p a Hs)). apply own_in_restr; [done|].
  intros x Hx. by eapply shows_dom.
Qed.

(** ** running *)
Lemma wp_run {A} hr (c : M A) Q o s h hf :
  hprop_at (wp hr c Q) h → fair o → h ##ₘ hf → hr ⊆ hf → s_heap s = h ∪ hf →
  ∃ h' s' a w, c o s = Ok (s', a) ∧ h' ##ₘ hf ∧ s_heap s' = h' ∪ hf ∧
     s_log s' = w ++ s_log s ∧ (∀ x, x ∈ w → hf !! x = None) ∧ dom h ⊆ dom h' ∧ hprop_at (Q a) h'.
Proof. intros H. apply H. Qed.

(** arbitrary writes elsewhere *)
Lemma mutates_frame O h h' : mutates O h h' → ∀ x, is_Some (h !! x) → ¬ O x → h' !! x = h !! x.
Proof.
  induction 1 as [O h|O h h' y c Ho Hy Hm IH|O h h' y c Hy Hm IH]; intros x Hx Hn.
  - done.
  - assert (x ≠ y) by (intros ->; done). rewrite IH; [by apply lookup_insert_ne| |done].
    by rewrite lookup_insert_ne.
  - assert (x ≠ y) by (intros ->; rewrite Hy in Hx; by destruct Hx).
    rewrite IH; [by apply lookup_insert_ne| |].
    + by rewrite lookup_insert_ne.
    + by intros [?|?].
Qed.

(** ** Clone *)
Lemma thm_clone o s p a :
  fair o → shows (s_heap s) p a →
  ∃ s' q w, h_clone_ia p o s = Ok (s', q) ∧
    shows (s_heap s') q a ∧ unshared (s_heap s') q ∧
    (∀ x, x ∈ cells (s_heap s') q → s_heap s !! x = None) ∧
    s_heap s ⊆ s_heap s' ∧
    s_log s' = w ++ s_log s ∧ (∀ x, x ∈ w → s_heap s !! x = None).
Proof.
  intros Ho Hs.
  assert (H : ⊢ wp (s_heap s) (h_clone_ia p) (λ q, ia_rep q a)).
  { iApply wp_clone_ia; [done|]. iIntros (q) "H". done. }
  apply hprop_entails_at with (h := ∅) in H; [|done].
  destruct (wp_run _ _ _ o s ∅ (s_heap s) H Ho) as (h' & s' & q & w & Hc & Hd & Hh & Hl & Hw & _ & HQ).
  - apply map_disjoint_empty_l.
  - done.
  - by rewrite (left_id_L _ _).
  - assert (Hsub : h' ⊆ s_heap s') by (rewrite Hh; apply map_union_subseteq_l).
    exists s', q, w. split_and!; try done.
    + eapply shows_mono; [exact Hsub|]. by apply ia_shows.
    + pose proof (proj1 (hprop_entails_at _ _) (foot_ia q a) h' HQ) as Hf.
      destruct (foot_at' _ _ _ Hf Hsub) as (He & Hnd & _). unfold unshared. by rewrite He.
    + pose proof (proj1 (hprop_entails_at _ _) (foot_ia q a) h' HQ) as Hf.
      destruct (foot_at' _ _ _ Hf Hsub) as (He & _ & Hin). intros x Hx. rewrite He in Hx.
      apply Hin in Hx as [c Hx]. exact (map_disjoint_Some_l _ _ _ _ Hd Hx).
    + rewrite Hh. by apply map_union_subseteq_r.
Qed.

(** ** operations on an unshared aggregation touch nothing else *)
Lemma thm_on_own {A} (c : M A) (Qv : A → ia) p a o s hr :
  (∀ hr', hr ⊆ hr' → ia_rep p a ⊢ wp hr' c (λ r, ia_rep p (Qv r))) →
  fair o → shows (s_heap s) p a → unshared (s_heap s) p →
  hr ⊆ s_heap s → (∀ x, x ∈ cells (s_heap s) p → hr !! x = None) →
  ∃ s' r w, c o s = Ok (s', r) ∧
    shows (s_heap s') p (Qv r) ∧ unshared (s_heap s') p ∧
    (∀ x, is_Some (s_heap s !! x) → x ∉ cells (s_heap s) p → s_heap s' !! x = s_heap s !! x ∧ x ∉ cells (s_heap s') p ∧ x ∉ w) ∧
    s_log s' = w ++ s_log s.
Proof.
  intros Hc Ho Hs Hu Hr Hrd.
  pose proof (ia_rep_cells _ _ _ Hs Hu) as Hrep.
  set (h0 := restr (s_heap s) (cells (s_heap s) p)) in *.
  assert (H0 : h0 ⊆ s_heap s) by apply restr_sub.
  assert (Hrd2 : hr ⊆ s_heap s ∖ h0).
  { apply map_subseteq_spec. intros x c' Hx. apply lookup_difference_Some. split; [by eapply lookup_weaken|].
    unfold h0. rewrite restr_lookup. destruct (decide _) as [Hi|Hi]; [|done]. rewrite Hrd in Hx; [done|done]. }
  pose proof (proj1 (hprop_entails_at _ _) (Hc hr (reflexivity hr)) h0 Hrep) as Hwp.
  destruct (wp_run _ _ _ o s h0 (s_heap s ∖ h0) Hwp Ho) as (h' & s' & r & w & He & Hd & Hh & Hl & Hw & _ & HQ).
  - apply map_disjoint_spec. intros i x y Hx Hy. apply lookup_difference_Some in Hy as [_ Hy]. congruence.
  - done.
  - symmetry. by apply map_difference_union.
  - assert (Hsub : h' ⊆ s_heap s') by (rewrite Hh; apply map_union_subseteq_l).
    pose proof (proj1 (hprop_entails_at _ _) (foot_ia p (Qv r)) h' HQ) as Hf.
    destruct (foot_at' _ _ _ Hf Hsub) as (Hce & Hnd & Hin).
    exists s', r, w. split_and!; try done.
    + eapply shows_mono; [exact Hsub|]. by apply ia_shows.
    + unfold unshared. by rewrite Hce.
    + intros x [c' Hx] Hn.
      assert (Hfx : (s_heap s ∖ h0) !! x = Some c').
      { apply lookup_difference_Some. split; [done|]. unfold h0. by rewrite restr_lookup decide_False. }
      split_and!.
      * rewrite Hh Hx. by apply lookup_union_Some_r.
      * rewrite Hce. intros [c'' Hx']%Hin. rewrite (map_disjoint_Some_l _ _ _ _ Hd Hx') in Hfx. done.
      * intros Hxw%Hw. by rewrite Hxw in Hfx.
Qed.

Lemma thm_apply o s p a c :
  fair o → shows (s_heap s) p a → unshared (s_heap s) p →
  ∃ s' w, h_apply p c o s = Ok (s', tt) ∧
    shows (s_heap s') p (ia_apply a c) ∧ unshared (s_heap s') p ∧
    (∀ x, is_Some (s_heap s !! x) → x ∉ cells (s_heap s) p → s_heap s' !! x = s_heap s !! x ∧ x ∉ cells (s_heap s') p ∧ x ∉ w) ∧
    s_log s' = w ++ s_log s.
Proof.
  intros Ho Hs Hu.
  destruct (thm_on_own (h_apply p c) (λ _, ia_apply a c) p a o s ∅) as (s' & [] & w & H); try done.
  - intros hr' _. iIntros "H". iApply (wp_apply with "H"). iIntros "H". done.
  - apply map_empty_subseteq.
  - by exists s', w.
Qed.

Lemma thm_merge o s pa pb a b :
  fair o → shows (s_heap s) pa a → unshared (s_heap s) pa →
  shows (s_heap s) pb b → apart (s_heap s) pa pb →
  ∃ s' w, h_merge_ia pa pb o s = Ok (s', tt) ∧
    shows (s_heap s') pa (ia_merge a b) ∧ unshared (s_heap s') pa ∧
    shows (s_heap s') pb b ∧ cells (s_heap s') pb = cells (s_heap s) pb ∧
    apart (s_heap s') pa pb ∧
    (∀ x, is_Some (s_heap s !! x) → x ∉ cells (s_heap s) pa → s_heap s' !! x = s_heap s !! x ∧ x ∉ w) ∧
    s_log s' = w ++ s_log s.
Proof.
  intros Ho Ha Hu Hb Hap.
  destruct (thm_on_own (h_merge_ia pa pb) (λ _, ia_merge a b) pa a o s (restr (s_heap s) (cells (s_heap s) pb)))
    as (s' & [] & w & He & Hs' & Hu' & Hx & Hl); try done.
  - intros hr' Hsub. iIntros "H". iApply (wp_merge_ia with "H"); [|by iIntros "H"].
    eapply shows_mono; [exact Hsub|]. eapply shows_local; [|exact Hb].
    intros x Hx. rewrite restr_lookup. by rewrite decide_True.
  - apply restr_sub.
  - intros x Hx. rewrite restr_lookup. destruct (decide _) as [Hi|]; [|done]. destruct (Hap x Hx Hi).
  - assert (Hag : agree (s_heap s) (s_heap s') (cells (s_heap s) pb)).
    { intros x Hxb. apply Hx; [by eapply shows_dom|]. intros Hxa. exact (Hap x Hxa Hxb). }
    exists s', w. split_and!; try done.
    + by eapply shows_local.
    + by apply cells_local.
    + intros x Hxa Hxb. rewrite (cells_local _ _ _ Hag) in Hxb.
      assert (Hd : is_Some (s_heap s !! x)) by (by eapply shows_dom).
      destruct (Hx x Hd) as (_ & Hn & _); [|done]. intros Hxa'. exact (Hap x Hxa' Hxb).
    + intros x Hd Hn. destruct (Hx x Hd Hn) as (? & _ & ?). done.
Qed.

(** ** no mutation of one side is seen through the other *)
Lemma thm_apart_mutation h p q a h' :
  shows h p a → apart h q p → mutates (λ x, x ∈ cells h q) h h' → shows h' p a.
Proof.
  intros Hs Hap Hm. eapply shows_local; [|exact Hs]. intros x Hx.
  eapply mutates_frame; [exact Hm|by eapply shows_dom|]. intros Hq. exact (Hap x Hq Hx).
Qed.
