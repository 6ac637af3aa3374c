(** * Proof rules for the pointer-level machine *)
From Verif Require Export SHeap PHeapLogic.
From iris.proofmode Require Export tactics.

Notation hP := (hpropI cell).

(** [wp hr c Q]: with the heap [hr] available for reading only, [c] runs
    without a crash, leaves every cell it does not own alone (it does not even
    store to one) and ends in [Q]. *)
Program Definition wp {A} (hr : heap) (c : M A) (Q : A → hP) : hP :=
  {| hprop_at h := ∀ o s hf, fair o → h ##ₘ hf → hr ⊆ hf → s_heap s = h ∪ hf →
       ∃ h' s' a w, c o s = Ok (s', a) ∧ h' ##ₘ hf ∧ s_heap s' = h' ∪ hf ∧
         s_log s' = w ++ s_log s ∧ (∀ x, x ∈ w → hf !! x = None) ∧ dom h ⊆ dom h' ∧
         hprop_at (Q a) h' |}.
Next Obligation.
  cbn. intros A hr c Q h1 h2 H Hs o s hf Ho Hd Hr Hh.
  assert (H2 : h2 = h1 ∪ (h2 ∖ h1)) by (symmetry; by apply map_difference_union).
  assert (H12 : h1 ##ₘ h2 ∖ h1).
  { apply map_disjoint_spec. intros i x y Hx Hy. apply lookup_difference_Some in Hy as [_ Hy]. congruence. }
  rewrite H2 in Hd. apply map_disjoint_union_l in Hd as [Hd1 Hd2].
  destruct (H o s ((h2 ∖ h1) ∪ hf) Ho) as (h' & s' & a & w & Hc & Hd' & Hh' & Hl & Hw & Hdom & HQ).
  - apply map_disjoint_union_r. done.
  - etrans; [exact Hr|]. by apply map_union_subseteq_r.
  - by rewrite (assoc_L _) -H2.
  - apply map_disjoint_union_r in Hd' as [Hd1' Hd2'].
    exists (h' ∪ (h2 ∖ h1)), s', a, w. split_and!.
    + done.
    + by apply map_disjoint_union_l.
    + by rewrite -(assoc_L _).
    + done.
    + intros x Hx. apply Hw in Hx. by apply lookup_union_None in Hx as [_ Hx].
    + rewrite H2 !dom_union_L. set_solver.
    + eapply hprop_closed; [exact HQ|]. apply map_union_subseteq_l.
Qed.

Section rules.
  Context {A B : Type}.
  Implicit Types (c : M A) (Q : A → hP) (hr : heap).

  Lemma wp_ret hr (a : A) Q : Q a ⊢ wp hr (hret a) Q.
  Proof.
    apply hprop_entails_at. intros h HQ o s hf Ho Hd Hr Hh.
    exists h, s, a, []. split_and!; try done. by intros x Hx%elem_of_nil.
  Qed.

  Lemma wp_bind hr c (k : A → M B) (Q : B → hP) :
    wp hr c (λ a, wp hr (k a) Q) ⊢ wp hr (hbind c k) Q.
  Proof.
    apply hprop_entails_at. intros h H o s hf Ho Hd Hr Hh.
    destruct (H o s hf Ho Hd Hr Hh) as (h1 & s1 & a & w1 & Hc & Hd1 & Hh1 & Hl1 & Hw1 & Hdom1 & H1).
    destruct (H1 o s1 hf Ho Hd1 Hr Hh1) as (h2 & s2 & b & w2 & Hk & Hd2 & Hh2 & Hl2 & Hw2 & Hdom2 & H2).
    exists h2, s2, b, (w2 ++ w1). split_and!; try done.
    - unfold hbind. rewrite Hc. cbn. done.
    - rewrite Hl2 Hl1. by rewrite app_assoc.
    - intros x [Hx|Hx]%elem_of_app; [by apply Hw2|by apply Hw1].
    - set_solver.
  Qed.

  Lemma wp_wand hr c Q Q' : wp hr c Q -∗ (∀ a, Q a -∗ Q' a) -∗ wp hr c Q'.
  Proof.
    apply hprop_entails_at. intros h H. apply hprop_wand_at. intros h' Hd HW o s hf Ho Hd' Hr Hh.
    apply map_disjoint_union_l in Hd' as [Hda Hdb].
    destruct (H o s (h' ∪ hf) Ho) as (h1 & s1 & a & w1 & Hc & Hd1 & Hh1 & Hl1 & Hw1 & Hdom1 & H1).
    - by apply map_disjoint_union_r.
    - etrans; [exact Hr|]. by apply map_union_subseteq_r.
    - by rewrite (assoc_L _).
    - apply map_disjoint_union_r in Hd1 as [Hd1a Hd1b].
      exists (h1 ∪ h'), s1, a, w1. split_and!; try done.
      + by apply map_disjoint_union_l.
      + by rewrite -(assoc_L _).
      + intros x Hx. apply Hw1 in Hx. by apply lookup_union_None in Hx as [_ Hx].
      + rewrite !dom_union_L. set_solver.
      + rewrite (map_union_comm h1 h'); [|done].
        change (hprop_at (∀ a, Q a -∗ Q' a)%I h') in HW.
        specialize (HW a). apply (proj1 (hprop_wand_at _ _ _) HW); [by symmetry|done].
  Qed.

  Lemma wp_ro_mono hr hr' c Q : hr ⊆ hr' → wp hr c Q ⊢ wp hr' c Q.
  Proof.
    intros Hs. apply hprop_entails_at. intros h H o s hf Ho Hd Hr Hh.
    apply H; try done. by etrans.
  Qed.

  (** lend owned cells as read-only ones *)
  Lemma wp_share hr c Q (P : hP) :
    (∀ h1, hprop_at P h1 → ⊢ wp h1 c Q) → P ⊢ wp hr c (λ a, P ∗ Q a).
  Proof.
    intros H. apply hprop_entails_at. intros h HP o s hf Ho Hd Hr Hh.
    specialize (H h HP). apply hprop_entails_at with (h := ∅) in H; [|apply hprop_emp_at].
    destruct (H o s (h ∪ hf) Ho) as (h1 & s1 & a & w1 & Hc & Hd1 & Hh1 & Hl1 & Hw1 & Hdom1 & H1).
    - apply map_disjoint_empty_l.
    - apply map_union_subseteq_l.
    - by rewrite (left_id_L _ _).
    - apply map_disjoint_union_r in Hd1 as [Hd1a Hd1b].
      exists (h ∪ h1), s1, a, w1. split_and!; try done.
      + by apply map_disjoint_union_l.
      + rewrite Hh1. rewrite (assoc_L _). f_equal. by apply map_union_comm.
      + intros x Hx. apply Hw1 in Hx. by apply lookup_union_None in Hx as [_ Hx].
      + rewrite dom_union_L. set_solver.
      + apply hprop_sep_at. exists h, h1. split_and!; try done.
  Qed.
End rules.

Lemma wp_load hr p c (Q : cell → hP) : p ↦ c -∗ (p ↦ c -∗ Q c) -∗ wp hr (hload p) Q.
Proof.
  apply hprop_entails_at. intros h Hp. apply hprop_wand_at. intros h' Hd HW o s hf Ho Hd' Hr Hh.
  cbn in Hp.
  exists (h ∪ h'), s, c, []. split_and!; try done.
  - unfold hload. rewrite Hh -(assoc_L _) (lookup_union_Some_l _ _ _ _ Hp). done.
  - by intros x Hx%elem_of_nil.
  - rewrite (map_union_comm h h'); [|done]. apply (proj1 (hprop_wand_at _ _ _) HW); [by symmetry|done].
Qed.

Lemma wp_load_ro hr p c (Q : cell → hP) : hr !! p = Some c → Q c ⊢ wp hr (hload p) Q.
Proof.
  intros Hp. apply hprop_entails_at. intros h HQ o s hf Ho Hd Hr Hh.
  exists h, s, c, []. split_and!; try done.
  - unfold hload. rewrite Hh. rewrite (lookup_union_Some_r h hf p c); [done|done|].
    by eapply lookup_weaken.
  - by intros x Hx%elem_of_nil.
Qed.

Lemma wp_store hr p c c' (Q : unit → hP) : p ↦ c -∗ (p ↦ c' -∗ Q tt) -∗ wp hr (hstore p c') Q.
Proof.
  apply hprop_entails_at. intros h Hp. apply hprop_wand_at. intros h' Hd HW o s hf Ho Hd' Hr Hh.
  cbn in Hp. apply map_disjoint_union_l in Hd' as [Hd1 Hd2].
  assert (Hph : h' !! p = None) by (exact (map_disjoint_Some_l _ _ _ _ Hd Hp)).
  assert (Hpf : hf !! p = None) by (exact (map_disjoint_Some_l _ _ _ _ Hd1 Hp)).
  exists (<[p := c']> h ∪ h'), (St (<[p := c']> (s_heap s)) (p :: s_log s) (s_tick s)), tt, [p].
  split_and!.
  - unfold hstore. rewrite Hh -(assoc_L _) (lookup_union_Some_l _ _ _ _ Hp). done.
  - apply map_disjoint_union_l. split; [|done]. apply map_disjoint_insert_l. done.
  - cbn. rewrite Hh. by rewrite -!insert_union_l.
  - done.
  - by intros x ->%elem_of_list_singleton.
  - rewrite !dom_union_L dom_insert_L. set_solver.
  - rewrite map_union_comm; [|apply map_disjoint_insert_l; done].
    apply (proj1 (hprop_wand_at _ _ _) HW); [apply map_disjoint_insert_r; split; [done|by symmetry]|].
    cbn. apply lookup_insert.
Qed.

Lemma wp_alloc hr c (Q : addr → hP) : (∀ p, p ↦ c -∗ Q p) ⊢ wp hr (halloc c) Q.
Proof.
  apply hprop_entails_at. intros h HW o s hf Ho Hd Hr Hh.
  set (p := fresh (dom (s_heap s))).
  assert (Hp : s_heap s !! p = None).
  { apply not_elem_of_dom. apply is_fresh. }
  rewrite Hh in Hp. apply lookup_union_None in Hp as [Hph Hpf].
  exists (<[p := c]> h), (St (<[p := c]> (s_heap s)) (s_log s) (s_tick s)), p, [].
  split_and!; try done.
  - apply map_disjoint_insert_l. done.
  - cbn. rewrite Hh. by rewrite insert_union_l.
  - by intros x Hx%elem_of_nil.
  - rewrite dom_insert_L. set_solver.
  - rewrite insert_union_singleton_r; [|done]. specialize (HW p).
    apply (proj1 (hprop_wand_at _ _ _) HW); [apply map_disjoint_singleton_r; done|].
    cbn. apply lookup_singleton.
Qed.

Lemma wp_hrange {V} hr (m : gmap string V) (Q : list (string * V) → hP) :
  (∀ l, ⌜l ≡ₚ map_to_list m⌝ -∗ Q l) ⊢ wp hr (hrange m) Q.
Proof.
  apply hprop_entails_at. intros h HW o s hf Ho Hd Hr Hh.
  eexists h, _, _, []. split_and!; try done.
  - by intros x Hx%elem_of_nil.
  - specialize (HW (o (s_tick s) V m)).
    pose proof (proj1 (hprop_wand_at _ _ _) HW ∅) as H. rewrite (right_id_L _ _) in H. apply H.
    + apply map_disjoint_empty_r.
    + apply Ho.
Qed.

(** a loop with invariant [I done] *)
Lemma wp_mfold {A B} hr (body : A → B → M A) (I : list B → A → hP) l0 l a (Q : A → hP) :
  (∀ l1 x l2 a, l = l1 ++ x :: l2 → I (l0 ++ l1) a ⊢ wp hr (body a x) (λ a', I (l0 ++ l1 ++ [x]) a')) →
  I l0 a -∗ (∀ a', I (l0 ++ l) a' -∗ Q a') -∗ wp hr (hfold body l a) Q.
Proof.
  revert l0 a. induction l as [|x l IH]; intros l0 a H; iIntros "HI HQ"; cbn.
  - iApply wp_ret. iApply "HQ". by rewrite app_nil_r.
  - iApply wp_bind. iApply (wp_wand with "[HI]").
    + iApply (H [] x l a); [done|]. by rewrite app_nil_r.
    + iIntros (a') "HI". cbn. iApply (IH (l0 ++ [x]) with "[HI]"); [|done|].
      * intros l1 y l2 a'' ->. specialize (H (x :: l1) y l2 a'' eq_refl).
        rewrite -(app_assoc l0 [x] l1) -(app_assoc l0 [x] (l1 ++ [y])). exact H.
      * iIntros (a'') "HI". iApply "HQ". rewrite -(assoc_L _). done.
Qed.

(** typed loads *)
Ltac tload := iIntros "Hp HQ"; iApply wp_bind; iApply (wp_load with "Hp"); iIntros "Hp"; cbn;
  iApply wp_ret; by iApply "HQ".
Ltac tload_ro := intros Hp; iIntros "HQ"; iApply wp_bind; iApply wp_load_ro; [done|]; cbn;
  by iApply wp_ret.

Section typed.
  Context (hr : heap) (p : addr).
  Lemma wp_load_timer t Q : p ↦ VTimer t -∗ (p ↦ VTimer t -∗ Q t) -∗ wp hr (load_timer p) Q.
  Proof. tload. Qed.
  Lemma wp_load_errc t Q : p ↦ VErrc t -∗ (p ↦ VErrc t -∗ Q t) -∗ wp hr (load_errc p) Q.
  Proof. tload. Qed.
  Lemma wp_load_timers t Q : p ↦ VTimers t -∗ (p ↦ VTimers t -∗ Q t) -∗ wp hr (load_timers p) Q.
  Proof. tload. Qed.
  Lemma wp_load_gauges t Q : p ↦ VGauges t -∗ (p ↦ VGauges t -∗ Q t) -∗ wp hr (load_gauges p) Q.
  Proof. tload. Qed.
  Lemma wp_load_events t Q : p ↦ VEvents t -∗ (p ↦ VEvents t -∗ Q t) -∗ wp hr (load_events p) Q.
  Proof. tload. Qed.
  Lemma wp_load_errs t Q : p ↦ VErrs t -∗ (p ↦ VErrs t -∗ Q t) -∗ wp hr (load_errs p) Q.
  Proof. tload. Qed.
  Lemma wp_load_jobs t Q : p ↦ VJobs t -∗ (p ↦ VJobs t -∗ Q t) -∗ wp hr (load_jobs p) Q.
  Proof. tload. Qed.
  Lemma wp_load_job t Q : p ↦ VJob t -∗ (p ↦ VJob t -∗ Q t) -∗ wp hr (load_job p) Q.
  Proof. tload. Qed.
  Lemma wp_load_ia t Q : p ↦ VIa t -∗ (p ↦ VIa t -∗ Q t) -∗ wp hr (load_ia p) Q.
  Proof. tload. Qed.
  Lemma wp_load_arr t Q : p ↦ VArr t -∗ (p ↦ VArr t -∗ Q t) -∗ wp hr (load_arr p) Q.
  Proof. tload. Qed.

  Lemma wp_ro_timer t Q : hr !! p = Some (VTimer t) → Q t ⊢ wp hr (load_timer p) Q.
  Proof. tload_ro. Qed.
  Lemma wp_ro_errc t Q : hr !! p = Some (VErrc t) → Q t ⊢ wp hr (load_errc p) Q.
  Proof. tload_ro. Qed.
  Lemma wp_ro_timers t Q : hr !! p = Some (VTimers t) → Q t ⊢ wp hr (load_timers p) Q.
  Proof. tload_ro. Qed.
  Lemma wp_ro_gauges t Q : hr !! p = Some (VGauges t) → Q t ⊢ wp hr (load_gauges p) Q.
  Proof. tload_ro. Qed.
  Lemma wp_ro_events t Q : hr !! p = Some (VEvents t) → Q t ⊢ wp hr (load_events p) Q.
  Proof. tload_ro. Qed.
  Lemma wp_ro_errs t Q : hr !! p = Some (VErrs t) → Q t ⊢ wp hr (load_errs p) Q.
  Proof. tload_ro. Qed.
  Lemma wp_ro_jobs t Q : hr !! p = Some (VJobs t) → Q t ⊢ wp hr (load_jobs p) Q.
  Proof. tload_ro. Qed.
  Lemma wp_ro_job t Q : hr !! p = Some (VJob t) → Q t ⊢ wp hr (load_job p) Q.
  Proof. tload_ro. Qed.
  Lemma wp_ro_ia t Q : hr !! p = Some (VIa t) → Q t ⊢ wp hr (load_ia p) Q.
  Proof. tload_ro. Qed.
End typed.
