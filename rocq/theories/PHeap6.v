(** * Programs over aggregations: pointers and values agree *)
From Verif Require Export PHeap5 MHeapProg.
#[local] Open Scope Z_scope.

Definition handles (ps : list addr) (vs : list ia) : hP := ([∗ list] p;v ∈ ps;vs, ia_rep p v)%I.

(** run [c] on [R] while [P] is only read *)
Lemma wp_share2 {A} hr (c : M A) Q (P R : hP) :
  (∀ h1, hprop_at P h1 → R ⊢ wp h1 c Q) → P ∗ R ⊢ wp hr c (λ a, P ∗ Q a).
Proof.
  intros H. apply hprop_entails_at. intros h (h1 & h2 & -> & Hd & HP & HR) o s hf Ho Hdf Hr Hh.
  apply map_disjoint_union_l in Hdf as [Hf1 Hf2].
  pose proof (proj1 (hprop_entails_at _ _) (H h1 HP) h2 HR) as HW.
  destruct (HW o s (h1 ∪ hf) Ho) as (h' & s1 & a & w1 & Hc & Hd1 & Hh1 & Hl1 & Hw1 & Hdom1 & H1).
  - apply map_disjoint_union_r. split; [by symmetry|done].
  - apply map_union_subseteq_l.
  - rewrite Hh (assoc_L _). f_equal. by apply map_union_comm.
  - apply map_disjoint_union_r in Hd1 as [Hd1a Hd1b].
    exists (h1 ∪ h'), s1, a, w1. split_and!; try done.
    + by apply map_disjoint_union_l.
    + rewrite Hh1 (assoc_L _). f_equal. by apply map_union_comm.
    + intros x Hx. apply Hw1 in Hx. by apply lookup_union_None in Hx as [_ Hx].
    + rewrite !dom_union_L. set_solver.
    + apply hprop_sep_at. exists h1, h'. split_and!; done.
Qed.

Lemma alter_as_insert {A} (f : A → A) (l : list A) i x : l !! i = Some x → alter f i l = <[i := f x]> l.
Proof.
  intros H. apply list_eq. intros j. destruct (decide (i = j)) as [<-|Hne].
  - rewrite list_lookup_alter H list_lookup_insert; [done|by eapply lookup_lt_Some].
  - by rewrite list_lookup_alter_ne // list_lookup_insert_ne.
Qed.
Lemma alter_none {A} (f : A → A) (l : list A) i : (length l ≤ i)%nat → alter f i l = l.
Proof.
  intros H. apply list_eq. intros j. destruct (decide (i = j)) as [<-|Hne].
  - rewrite list_lookup_alter. assert (l !! i = None) as -> by (by apply lookup_ge_None). done.
  - by rewrite list_lookup_alter_ne.
Qed.

Lemma wp_op F ps vs op : handles ps vs ⊢ wp F (h_op ps op) (λ ps', handles ps' (v_op vs op)).
Proof.
  iIntros "H". iDestruct (big_sepL2_length with "H") as %Hlen.
  destruct op as [start|i c|i|i j]; cbn [h_op v_op].
  - wbind. iApply wp_new_ia. iIntros (p) "Hp". iApply wp_ret. iApply (big_sepL2_app with "H"). by iFrame.
  - destruct (ps !! i) as [p|] eqn:Hp.
    + destruct (lookup_lt_is_Some_2 vs i) as [v Hv]; [rewrite -Hlen; by eapply lookup_lt_Some|].
      iDestruct (big_sepL2_insert_acc with "H") as "[Hi Hw]"; [done|done|].
      wbind. iApply (wp_apply with "Hi"). iIntros "Hi". iApply wp_ret.
      iSpecialize ("Hw" $! p _ with "Hi"). rewrite list_insert_id; [|done].
      rewrite (alter_as_insert _ vs i v Hv). done.
    + iApply wp_ret. rewrite alter_none; [done|]. apply lookup_ge_None in Hp. lia.
  - destruct (ps !! i) as [p|] eqn:Hp.
    + destruct (lookup_lt_is_Some_2 vs i) as [v Hv]; [rewrite -Hlen; by eapply lookup_lt_Some|].
      rewrite Hv. iDestruct (big_sepL2_lookup_acc with "H") as "[Hi Hw]"; [done|done|].
      wbind. iApply (wp_wand with "[Hi]").
      { iApply (wp_share _ _ (λ q, ia_rep q v)); [|iExact "Hi"]. intros h1 Hh1.
        iApply wp_clone_ia; [by apply ia_shows|]. iIntros (q) "H". done. }
      iIntros (q) "[Hi Hq]". iApply wp_ret. iSpecialize ("Hw" with "Hi").
      iApply (big_sepL2_app with "Hw"). by iFrame.
    + iApply wp_ret. assert (vs !! i = None) as -> by (apply lookup_ge_None in Hp; apply lookup_ge_None; lia). done.
  - destruct (ps !! j) as [q|] eqn:Hq.
    2:{ assert (vs !! j = None) as -> by (apply lookup_ge_None in Hq; apply lookup_ge_None; lia).
        destruct (ps !! i); by iApply wp_ret. }
    destruct (lookup_lt_is_Some_2 vs j) as [b Hb]; [rewrite -Hlen; by eapply lookup_lt_Some|]. rewrite Hb.
    destruct (ps !! i) as [p|] eqn:Hp.
    2:{ iApply wp_ret. rewrite alter_none; [by destruct (Nat.eqb i j)|]. apply lookup_ge_None in Hp. lia. }
    destruct (Nat.eqb_spec i j) as [->|Hne]; [by iApply wp_ret|].
    destruct (lookup_lt_is_Some_2 vs i) as [a Ha]; [rewrite -Hlen; by eapply lookup_lt_Some|].
    unfold handles. rewrite (big_sepL2_delete _ ps vs i p a) //. iDestruct "H" as "[Hi H]".
    iDestruct (big_sepL2_lookup_acc _ _ _ j with "H") as "[Hj Hw]"; [done|done|].
    rewrite decide_False; [|done].
    wbind. iApply (wp_wand with "[Hi Hj]").
    { iApply (wp_share2 _ _ (λ _, ia_rep p (ia_merge a b)) (ia_rep q b) (ia_rep p a)); [|iFrame].
      intros h1 Hh1. iIntros "H". iApply (wp_merge_ia with "H"); [by apply ia_shows|]. iIntros "H". done. }
    iIntros (_) "[Hj Hi]". iSpecialize ("Hw" with "Hj"). iApply wp_ret.
    rewrite (alter_as_insert _ vs i a Ha).
    rewrite (big_sepL2_delete _ ps (<[i:=ia_merge a b]> vs) i p (ia_merge a b)) //.
    2:{ apply list_lookup_insert. by eapply lookup_lt_Some. }
    iFrame "Hi". rewrite -{2}(list_insert_id ps i p Hp).
    iAssert (∀ y1 y2, (if decide (i = i) then emp else ia_rep y1 y2) -∗ True)%I as "_". { iIntros. done. }
    iDestruct (big_sepL2_insert_acc _ _ _ i with "Hw") as "[_ Hw]"; [done|done|].
    iApply "Hw". rewrite decide_True; done.
Qed.

Lemma wp_prog F prog ps vs (Q : list addr → hP) :
  handles ps vs -∗ (∀ ps', handles ps' (fold_left v_op prog vs) -∗ Q ps') -∗ wp F (hfold h_op prog ps) Q.
Proof.
  revert ps vs. induction prog as [|op prog IH]; intros ps vs; iIntros "H HQ"; cbn.
  - iApply wp_ret. by iApply "HQ".
  - wbind. iApply (wp_wand with "[H]"); [by iApply wp_op|]. iIntros (ps') "H". by iApply (IH with "H").
Qed.

Lemma handles_shows ps vs h : hprop_at (handles ps vs) h → Forall2 (shows h) ps vs.
Proof.
  intros H. assert (Hlen : length ps = length vs).
  { assert (HE : handles ps vs ⊢ ⌜length ps = length vs⌝) by (iIntros "H"; by iApply big_sepL2_length).
    exact (proj1 (hprop_entails_at _ _) HE h H). }
  apply Forall2_same_length_lookup_2; [done|]. intros i p v Hp Hv. apply ia_shows.
  revert h H. apply (proj1 (hprop_entails_at _ _)). iIntros "H".
  iDestruct (big_sepL2_lookup _ _ _ i with "H") as "H"; [done|done|]. done.
Qed.

Lemma handles_foot ps vs h h' i p : hprop_at (handles ps vs) h → h ⊆ h' → ps !! i = Some p →
  unshared h' p ∧ ∀ j q, ps !! j = Some q → i ≠ j → apart h' p q.
Proof.
  intros H Hs Hp. pose proof (handles_shows _ _ _ H) as Hsh. pose proof (Forall2_length _ _ _ Hsh) as Hlen.
  destruct (lookup_lt_is_Some_2 vs i) as [v Hv]; [rewrite -Hlen; by eapply lookup_lt_Some|].
  split.
  - assert (Hf : hprop_at (foot (λ h, cells h p)) h).
    { revert h H Hs Hsh. assert (handles ps vs ⊢ foot (λ h, cells h p)) as HE; [|intros h H _ _; by apply (proj1 (hprop_entails_at _ _) HE)].
      iIntros "H". iDestruct (big_sepL2_lookup _ _ _ i with "H") as "H"; [done|done|]. by iApply foot_ia. }
    destruct (foot_at' _ _ _ Hf Hs) as (He & Hnd & _). unfold unshared. by rewrite He.
  - intros j q Hq Hne. destruct (lookup_lt_is_Some_2 vs j) as [u Hu]; [rewrite -Hlen; by eapply lookup_lt_Some|].
    assert (HE : handles ps vs ⊢ foot (λ h, cells h p) ∗ foot (λ h, cells h q)).
    { iIntros "H". unfold handles. rewrite (big_sepL2_delete _ ps vs i p v) //. iDestruct "H" as "[Hi H]".
      iDestruct (big_sepL2_lookup _ _ _ j with "H") as "H"; [done|done|]. rewrite decide_False; [|done].
      iSplitL "Hi"; by iApply foot_ia. }
    destruct (proj1 (hprop_entails_at _ _) HE h H) as (h1 & h2 & -> & Hd & F1 & F2).
    assert (S1 : h1 ⊆ h') by (etrans; [apply map_union_subseteq_l|exact Hs]).
    assert (S2 : h2 ⊆ h') by (etrans; [by apply map_union_subseteq_r|exact Hs]).
    destruct (foot_at' _ _ _ F1 S1) as (E1 & _ & D1). destruct (foot_at' _ _ _ F2 S2) as (E2 & _ & D2).
    intros x Hx1 Hx2. rewrite E1 in Hx1. rewrite E2 in Hx2.
    destruct (D1 x Hx1) as [c1 Hc1]. destruct (D2 x Hx2) as [c2 Hc2].
    exact (proj1 (map_disjoint_spec h1 h2) Hd _ _ _ Hc1 Hc2).
Qed.

Lemma thm_prog o s prog :
  fair o →
  ∃ s' ps w, h_prog prog o s = Ok (s', ps) ∧
    Forall2 (shows (s_heap s')) ps (v_prog prog) ∧
    (∀ p, p ∈ ps → unshared (s_heap s') p) ∧
    (∀ i j p q, ps !! i = Some p → ps !! j = Some q → i ≠ j → apart (s_heap s') p q) ∧
    s_heap s ⊆ s_heap s' ∧ s_log s' = w ++ s_log s ∧ (∀ x, x ∈ w → s_heap s !! x = None).
Proof.
  intros Ho.
  assert (H : ⊢ wp (s_heap s) (h_prog prog) (λ ps, handles ps (v_prog prog))).
  { iApply (wp_prog _ _ [] []); [by rewrite /handles|]. iIntros (ps) "H". done. }
  apply hprop_entails_at with (h := ∅) in H; [|done].
  destruct (wp_run _ _ _ o s ∅ (s_heap s) H Ho) as (h' & s' & ps & w & Hc & Hd & Hh & Hl & Hw & _ & HQ).
  - apply map_disjoint_empty_l.
  - done.
  - by rewrite (left_id_L _ _).
  - assert (Hsub : h' ⊆ s_heap s') by (rewrite Hh; apply map_union_subseteq_l).
    exists s', ps, w. split_and!; try done.
    + eapply Forall2_impl; [by eapply handles_shows|]. intros p v Hp. exact (shows_mono _ _ _ _ Hsub Hp).
    + intros p [i Hi]%elem_of_list_lookup. by destruct (handles_foot _ _ _ _ i p HQ Hsub Hi).
    + intros i j p q Hi Hj Hne. destruct (handles_foot _ _ _ _ i p HQ Hsub Hi) as [_ Hap]. by eapply Hap.
    + rewrite Hh. by apply map_union_subseteq_r.
Qed.
