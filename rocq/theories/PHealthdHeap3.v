(** * healthd on the heap: executions with other goroutines *)
From Verif Require Import PHeap4 PHeap5 PHeap6 PHeap7.
From Verif Require Export PHealthdHeap2.
#[local] Open Scope Z_scope.

(** ** what the resources say of the heap *)
Lemma at_entails (P Q : hP) h : (P ⊢ Q) → hprop_at P h → hprop_at Q h.
Proof. intros H. exact (proj1 (hprop_entails_at _ _) H h). Qed.
Lemma at_pure (P : hP) (φ : Prop) h : (P ⊢ ⌜φ⌝) → hprop_at P h → φ.
Proof. intros H HP. exact (at_entails _ _ _ H HP). Qed.

Lemma pub_shows q p h : hprop_at (pub_rep q p) h → shows_pub h q p.
Proof.
  intros H. split.
  - revert H. apply at_pure. iIntros "[%E _]". done.
  - apply ia_shows. revert H. apply at_entails. iIntros "[_ H]". done.
Qed.
Lemma host_shows x d h : hprop_at (host_rep x d) h → shows_host h x d.
Proof.
  intros H. assert (hp_loc x = d_loc d ∧ hp_null x = d_null d) as [H1 H2].
  { revert H. apply at_pure. iIntros "[%E _]". done. }
  split; [done|]. split; [done|]. apply ia_shows. revert H. apply at_entails. iIntros "[_ H]". done.
Qed.
Lemma hd_shows ph v h : hprop_at (hd_rep ph v) h → shows_hd h ph v.
Proof.
  intros H.
  assert (He : ph_dur ph = hd_dur v ∧ ph_max ph = hd_max v ∧ ph_need ph = hd_need v ∧ ph_status ph = hd_status v).
  { revert H. apply at_pure. iIntros "[%E _]". done. }
  destruct He as (E1 & E2 & E3 & E4). split; [done|]. split; [done|]. split; [|split; [|done]].
  - apply Forall2_same_length_lookup. split.
    + revert H. apply at_pure. iIntros "(_ & H & _)". by iApply big_sepL2_length.
    + intros i q p Hq Hp. apply pub_shows. revert H. apply at_entails. iIntros "(_ & H & _)".
      by iDestruct (big_sepL2_lookup with "H") as "H".
  - intros key. assert (Hk : is_Some (ph_host ph !! key) ↔ is_Some (hd_host v !! key)).
    { revert H. apply at_pure. iIntros "(_ & _ & H)". iDestruct (big_sepM2_lookup_iff with "H") as %Hk. by iPureIntro. }
    destruct Hk as [K1 K2].
    destruct (ph_host ph !! key) as [x|] eqn:Hx, (hd_host v !! key) as [d|] eqn:Hd.
    + apply host_shows. revert H. apply at_entails. iIntros "(_ & _ & H)". by iDestruct (big_sepM2_lookup with "H") as "H".
    + by destruct (K1 (mk_is_Some _ _ eq_refl)).
    + by destruct (K2 (mk_is_Some _ _ eq_refl)).
    + done.
Qed.
Lemma shows_hd_mono h h' ph v : h ⊆ h' → shows_hd h ph v → shows_hd h' ph v.
Proof.
  intros Hs (H1 & H2 & H3 & H4 & H5). split; [done|]. split; [done|]. split; [|split; [|done]].
  - eapply Forall2_impl; [exact H3|]. intros q p [E S]. split; [done|by eapply shows_mono].
  - intros key. specialize (H4 key). destruct (ph_host ph !! key), (hd_host v !! key); try done.
    destruct H4 as (E1 & E2 & S). split; [done|]. split; [done|by eapply shows_mono].
Qed.

Lemma foot_snap sl l : snap_rep sl l ⊢ foot (λ h, cells_slice h sl).
Proof.
  iIntros "H". iDestruct "H" as (cap ps) "[Ha H]". iDestruct "Ha" as (arr) "[Ha %He]".
  destruct He as (Hc & Hl & Hn & Ht).
  iApply (foot_cell (sl_arr sl) (VArr arr) (λ h, concat (cells h <$> ps))
    (λ c h, match c with
            | Some (VArr arr) => concat ((λ o, match o with Some p => cells h p | None => [] end) <$> take (sl_len sl) arr)
            | _ => []
            end)).
  { intros h. cbn. rewrite Hn Ht -list_fmap_compose. done. }
  iFrame. iApply (foot_list (λ p, ∃ a, ia_rep p a)%I cells).
  { intros q. iIntros "H". iDestruct "H" as (a) "H". by iApply foot_ia. }
  clear. iInduction ps as [|p ps] "IH" forall (l); [done|]. destruct l as [|a l]; [done|]. cbn. iDestruct "H" as "[Hp H]".
  iSplitL "Hp"; [by iExists a|]. by iApply "IH".
Qed.
Lemma snap_shows sl l h : hprop_at (snap_rep sl l) h → shows_slice h sl l.
Proof.
  intros (cap & ps & h1 & h2 & -> & Hd & Ha & Hp). apply handles_shows in Hp.
  destruct (arr_at _ _ _ _ Ha) as (arr & Harr & Hn & Ht). exists arr. split; [by apply lookup_union_Some_l|].
  rewrite Ht Forall2_fmap_l. eapply Forall2_impl; [exact Hp|]. intros p a Hs. exists p. split; [done|].
  eapply shows_mono; [|exact Hs]. by apply map_union_subseteq_r.
Qed.

(** ** the invariant *)
Definition hinv (c : conf) (v : MHealthd.hd) (hA hf : heap) : Prop :=
  hA ##ₘ hf ∧ s_heap (c_st c) = hA ∪ hf ∧ c_theirs c ⊆ dom hf ∧ hprop_at (hd_rep (c_hd c) v) hA.

Lemma hinv0 s hosts : hinv (conf0 s hosts) (hd_init hosts) ∅ (s_heap s).
Proof.
  split; [apply map_disjoint_empty_l|]. split; [by rewrite left_id_L|]. split; [done|].
  assert (H : ⊢ hd_rep (phd_init hosts) (hd_init hosts)).
  { unfold hd_rep, pubs_rep, hosts_rep. cbn. iSplit; [done|]. iSplit; [done|]. by iApply big_sepM2_empty. }
  apply (at_entails _ _ _ H). apply hprop_emp_at.
Qed.
Lemma hinv_shows c v hA hf : hinv c v hA hf → shows_hd (s_heap (c_st c)) (c_hd c) v.
Proof.
  intros (Hd & Hh & _ & H). eapply shows_hd_mono; [|by apply hd_shows]. rewrite Hh. apply map_union_subseteq_l.
Qed.

(** others do not reach the loop's cells *)
Lemma mutates_dom O h h' : mutates O h h' → dom h ⊆ dom h'.
Proof.
  induction 1 as [O h|O h h' y c Ho Hy Hm IH|O h h' y c Hy Hm IH]; [done| |].
  - rewrite dom_insert_L in IH. set_solver.
  - rewrite dom_insert_L in IH. set_solver.
Qed.
Lemma hinv_others c v hA hf (keep : gset addr) h :
  hinv c v hA hf → mutates (λ x, x ∈ c_theirs c ∧ x ∉ keep) (s_heap (c_st c)) h →
  ∃ hf', hinv (Conf (St h (s_log (c_st c)) (s_tick (c_st c))) (c_hd c) (c_theirs c ∪ (dom h ∖ dom (s_heap (c_st c))))) v hA hf'.
Proof.
  intros (Hd & Hh & Ht & H) Hm.
  assert (Hsub : hA ⊆ h).
  { apply map_subseteq_spec. intros x y Hx. assert (Hin : s_heap (c_st c) !! x = Some y) by (rewrite Hh; by apply lookup_union_Some_l).
    rewrite (mutates_frame _ _ _ Hm); [done|by eexists|]. intros [Hin' _]. apply Ht, elem_of_dom in Hin' as [z Hz].
    exact (proj1 (map_disjoint_spec hA hf) Hd _ _ _ Hx Hz). }
  assert (Hu : hA ∪ (h ∖ hA) = h) by (by apply map_difference_union).
  exists (h ∖ hA). split_and!.
  - apply map_disjoint_spec. intros i x y Hx Hy. apply lookup_difference_Some in Hy as [_ Hy]. congruence.
  - by rewrite Hu.
  - cbn. pose proof (mutates_dom _ _ _ Hm) as Hdom. intros x Hx. rewrite dom_difference_L. apply elem_of_difference.
    rewrite Hh dom_union_L in Hdom Hx. apply map_disjoint_dom in Hd. set_solver.
  - exact H.
Qed.

(** ** the operations *)
Lemma step_agrees o c v hA hf op : fair o → hinv c v hA hf → pop_ok (c_hd c) op → ¬ is_read op →
  match vstep v op with
  | Ok v' => ∃ s ph hA' w, p_step (c_hd c) op o (c_st c) = Ok (s, (ph, None)) ∧ hinv (Conf s ph (c_theirs c)) v' hA' hf ∧
                s_log s = w ++ s_log (c_st c) ∧ ∀ x, x ∈ w → hf !! x = None
  | Crash why => p_step (c_hd c) op o (c_st c) = Crash why
  end.
Proof.
  intros Ho (Hd & Hh & Ht & H) Hok Hr.
  apply (at_entails _ _ _ (wpr_pstep ∅ _ _ _ Hr Hok)) in H.
  destruct (vstep v op) as [v'|why]; cbn [wpr] in H.
  - destruct (wp_run _ _ _ _ _ _ _ H Ho Hd (map_empty_subseteq hf) Hh) as (h' & s' & [ph out] & w & Hs & Hd' & Hh' & Hl & Hw & _ & H').
    cbn [fst snd] in H'. assert (out = None) as ->. { revert H'. apply at_pure. iIntros "[_ %E]". done. }
    exists s', ph, h', w. split; [done|]. split; [|done]. split; [done|]. split; [done|]. split; [done|].
    revert H'. apply at_entails. iIntros "[H _]". done.
  - exact (H o (c_st c) hf Ho Hd (map_empty_subseteq hf) Hh).
Qed.

(** a read allocates, and writes nothing that was there *)
Lemma read_step o c v hA hf : fair o → hinv c v hA hf →
  ∃ s sl hS, p_step (c_hd c) PRead o (c_st c) = Ok (s, (c_hd c, Some sl)) ∧ hS ##ₘ s_heap (c_st c) ∧
    s_heap s = hS ∪ s_heap (c_st c) ∧ hprop_at (snap_rep sl (pa_ia <$> hd_pub v)) hS ∧
    ∃ w, s_log s = w ++ s_log (c_st c) ∧ ∀ x, x ∈ w → s_heap (c_st c) !! x = None.
Proof.
  intros Ho (Hd & Hh & Ht & H). pose proof (hd_shows _ _ _ H) as (_ & _ & Hp & _).
  assert (H0 : hprop_at (wp hA (p_safe_intervals (c_hd c)) (λ sl, snap_rep sl (pa_ia <$> hd_pub v))) ∅).
  { apply (at_entails _ _ _ (wp_safe_intervals hA _ _ Hp)). apply hprop_emp_at. }
  destruct (wp_run _ _ _ o (c_st c) ∅ (s_heap (c_st c)) H0 Ho) as (hS & s' & sl & w & Hs & Hd' & Hh' & Hl & Hw & _ & H').
  - apply map_disjoint_empty_l.
  - rewrite Hh. apply map_union_subseteq_l.
  - by rewrite left_id_L.
  - exists s', sl, hS. split; [cbn [p_step]; unfold hbind; by rewrite Hs|]. split; [done|]. split; [done|]. split; [done|]. by exists w.
Qed.
Lemma handed_dom sl l hS h : hprop_at (snap_rep sl l) hS → hS ⊆ h →
  NoDup (cells_slice h sl) ∧ ∀ x, x ∈ cells_slice h sl → is_Some (hS !! x).
Proof.
  intros H Hs. apply (at_entails _ _ _ (foot_snap _ _)) in H. destruct (foot_at' _ _ _ H Hs) as (E & Hnd & Hin).
  split; [by rewrite E|]. intros x Hx. apply Hin. by rewrite -E.
Qed.
Lemma read_inv c v hA hf s sl hS : hinv c v hA hf → hS ##ₘ s_heap (c_st c) → s_heap s = hS ∪ s_heap (c_st c) →
  hprop_at (snap_rep sl (pa_ia <$> hd_pub v)) hS →
  hinv (Conf s (c_hd c) (c_theirs c ∪ handed (s_heap s) (Some sl))) v hA (hS ∪ hf).
Proof.
  intros (Hd & Hh & Ht & H) HdS Hs HS. rewrite Hh in HdS. apply map_disjoint_union_r in HdS as [Hd1 Hd2].
  assert (Hs' : s_heap s = hA ∪ (hS ∪ hf)).
  { rewrite Hs Hh. by rewrite (assoc_L (∪)) (map_union_comm hS hA) // -(assoc_L (∪)). }
  split; [by apply map_disjoint_union_r|]. split; [done|]. split; [|done].
  cbn [c_theirs handed]. intros x. rewrite elem_of_union elem_of_list_to_set dom_union_L elem_of_union.
  intros [Hx|Hx]; [right; by apply Ht|left].
  destruct (handed_dom sl _ hS (s_heap s) HS) as [_ Hin]; [rewrite Hs; apply map_union_subseteq_l|].
  apply elem_of_dom. by apply Hin.
Qed.

Lemma op_ok_v ph v op h : shows_hd h ph v → pop_ok ph op → ¬ is_read op →
  ∃ vop, same_op op vop ∧ hop_ok v vop ∧ hstep v vop = vstep v op.
Proof.
  intros (_ & _ & _ & Hk & Hn & _) Hok Hr. destruct op as [r t1 t2|now|po|]; [| | |done].
  - by exists (HResp r t1 t2).
  - by exists (HPurge now).
  - exists (HRecalc (vorder po (hd_host v))).
    destruct (vorder_ok ph v po) as [H1 H2]; [|done|done|split; [by split|done]].
    intros key. specialize (Hk key). destruct (ph_host ph !! key), (hd_host v !! key); try done.
    split; intros [? ?]; done.
Qed.

(** ** executions *)
Lemma run_inv o keep c tr c' v hA hf : fair o → hinv c v hA hf → prun o keep c tr c' →
  ∃ vtr v' hA' hf', same_ops tr vtr ∧ hrun v vtr (Ok v') ∧ hinv c' v' hA' hf'.
Proof.
  intros Ho Hi Hrun. revert v hA hf Hi. induction Hrun as [c|c op s ph out tr c' Hok Hs Hrun IH|c h tr c' Hm Hrun IH]; intros v hA hf Hi.
  - exists [], v, hA, hf. split; [constructor|]. split; [constructor|done].
  - destruct (decide (is_read op)) as [Hr|Hr].
    + destruct op; try done. destruct (read_step o c v hA hf Ho Hi) as (s1 & sl & hS & Hs1 & HdS & Hh & HS & _).
      rewrite Hs in Hs1. injection Hs1 as -> -> ->.
      destruct (IH v hA (hS ∪ hf)) as (vtr & v' & hA' & hf' & H1 & H2 & H3); [by apply read_inv|].
      exists vtr, v', hA', hf'. split; [|done]. unfold same_ops. rewrite filter_cons_False; [exact H1|]. intros H. by apply H.
    + pose proof (step_agrees o c v hA hf op Ho Hi Hok Hr) as Hst.
      destruct (op_ok_v _ _ _ _ (hinv_shows _ _ _ _ Hi) Hok Hr) as (vop & Hso & Hvok & Hv).
      destruct (vstep v op) as [v1|why]; [|congruence].
      destruct Hst as (s1 & ph1 & hA1 & w & Hs1 & Hi1 & _). rewrite Hs in Hs1. injection Hs1 as -> -> ->.
      destruct (IH v1 hA1 hf) as (vtr & v' & hA' & hf' & H1 & H2 & H3).
      { cbn [handed]. by rewrite right_id_L. }
      exists (vop :: vtr), v', hA', hf'. split; [|split; [by eapply Hr_step|done]].
      unfold same_ops. rewrite filter_cons_True; [|done]. by constructor.
  - destruct (hinv_others c v hA hf _ h Hi Hm) as [hf' Hi']. exact (IH v hA hf' Hi').
Qed.

(** The values behind the pointers are those of the value model, whatever the
    others do. *)
Lemma heap_agrees o keep s hosts tr c : fair o → prun o keep (conf0 s hosts) tr c →
  ∃ vtr v, same_ops tr vtr ∧ hrun (hd_init hosts) vtr (Ok v) ∧ shows_hd (s_heap (c_st c)) (c_hd c) v.
Proof.
  intros Ho Hrun. destruct (run_inv _ _ _ _ _ _ _ _ Ho (hinv0 s hosts) Hrun) as (vtr & v & hA & hf & H1 & H2 & H3).
  exists vtr, v. split; [done|]. split; [done|]. by eapply hinv_shows.
Qed.

(** The next operation, if not a read, ends as in the value model. *)
Lemma heap_step o keep s hosts tr c op : fair o → prun o keep (conf0 s hosts) tr c → pop_ok (c_hd c) op → ¬ is_read op →
  ∃ vtr v vop, same_ops tr vtr ∧ hrun (hd_init hosts) vtr (Ok v) ∧ same_op op vop ∧ hop_ok v vop ∧
    match hstep v vop with
    | Ok v' => ∃ s' ph, p_step (c_hd c) op o (c_st c) = Ok (s', (ph, None)) ∧ shows_hd (s_heap s') ph v'
    | Crash why => p_step (c_hd c) op o (c_st c) = Crash why
    end.
Proof.
  intros Ho Hrun Hok Hr. destruct (run_inv _ _ _ _ _ _ _ _ Ho (hinv0 s hosts) Hrun) as (vtr & v & hA & hf & H1 & H2 & Hi).
  destruct (op_ok_v _ _ _ _ (hinv_shows _ _ _ _ Hi) Hok Hr) as (vop & Hso & Hvok & Hv).
  exists vtr, v, vop. split; [done|]. split; [done|]. split; [done|]. split; [done|]. rewrite Hv.
  pose proof (step_agrees o c v hA hf op Ho Hi Hok Hr) as Hst. destruct (vstep v op) as [v1|why]; [|done].
  destruct Hst as (s1 & ph1 & hA1 & w & Hs1 & Hi1 & _). exists s1, ph1. split; [done|].
  exact (hinv_shows _ _ _ _ Hi1).
Qed.

(** A read never crashes; what is handed out shows the published
    aggregations, in cells none of which was there before, no cell twice; all
    that was there is as it was. *)
Lemma heap_read o keep s hosts tr c : fair o → prun o keep (conf0 s hosts) tr c →
  ∃ vtr v s' sl, same_ops tr vtr ∧ hrun (hd_init hosts) vtr (Ok v) ∧
    p_step (c_hd c) PRead o (c_st c) = Ok (s', (c_hd c, Some sl)) ∧
    shows_slice (s_heap s') sl (pa_ia <$> hd_pub v) ∧
    NoDup (cells_slice (s_heap s') sl) ∧
    (∀ x, x ∈ cells_slice (s_heap s') sl → s_heap (c_st c) !! x = None) ∧
    s_heap (c_st c) ⊆ s_heap s' ∧
    ∃ w, s_log s' = w ++ s_log (c_st c) ∧ ∀ x, x ∈ w → s_heap (c_st c) !! x = None.
Proof.
  intros Ho Hrun. destruct (run_inv _ _ _ _ _ _ _ _ Ho (hinv0 s hosts) Hrun) as (vtr & v & hA & hf & H1 & H2 & Hi).
  destruct (read_step o c v hA hf Ho Hi) as (s1 & sl & hS & Hs1 & HdS & Hh & HS & Hw).
  assert (Hsub : hS ⊆ s_heap s1) by (rewrite Hh; apply map_union_subseteq_l).
  destruct (handed_dom sl _ hS (s_heap s1) HS Hsub) as [Hnd Hin].
  exists vtr, v, s1, sl. split; [done|]. split; [done|]. split; [done|]. split; [|split; [done|split; [|split; [|done]]]].
  - apply snap_shows in HS as (arr & Ha & Hp). exists arr. split; [by eapply lookup_weaken|].
    eapply Forall2_impl; [exact Hp|]. intros oq a (q & -> & Hq). exists q. split; [done|by eapply shows_mono].
  - intros x [y Hy]%Hin. by eapply map_disjoint_Some_l.
  - rewrite Hh. by apply map_union_subseteq_r.
Qed.

(** No operation writes a cell in other hands. *)
Lemma heap_frame o keep s hosts tr c op s' r : fair o → prun o keep (conf0 s hosts) tr c → pop_ok (c_hd c) op →
  p_step (c_hd c) op o (c_st c) = Ok (s', r) →
  (∀ x, x ∈ c_theirs c → s_heap s' !! x = s_heap (c_st c) !! x) ∧
  ∃ w, s_log s' = w ++ s_log (c_st c) ∧ ∀ x, x ∈ c_theirs c → x ∉ w.
Proof.
  intros Ho Hrun Hok Hs. destruct (run_inv _ _ _ _ _ _ _ _ Ho (hinv0 s hosts) Hrun) as (vtr & v & hA & hf & _ & _ & Hi).
  pose proof Hi as (Hd & Hh & Ht & _).
  assert (Hdom : ∀ x, x ∈ c_theirs c → ∃ y, hf !! x = Some y ∧ s_heap (c_st c) !! x = Some y).
  { intros x Hx. apply Ht, elem_of_dom in Hx as [y Hy]. exists y. split; [done|]. rewrite Hh. by apply lookup_union_Some_r. }
  destruct (decide (is_read op)) as [Hr|Hr].
  - destruct op; try done. destruct (read_step o c v hA hf Ho Hi) as (s1 & sl & hS & Hs1 & HdS & Hh1 & HS & w & Hl & Hw).
    rewrite Hs in Hs1. injection Hs1 as -> ->. split.
    + intros x (y & _ & Hy)%Hdom. rewrite Hy Hh1. by apply lookup_union_Some_r.
    + exists w. split; [done|]. intros x (y & _ & Hy)%Hdom Hin%Hw. congruence.
  - pose proof (step_agrees o c v hA hf op Ho Hi Hok Hr) as Hst. destruct (vstep v op) as [v1|why]; [|congruence].
    destruct Hst as (s1 & ph1 & hA1 & w & Hs1 & (Hd1 & Hh1 & _) & Hl & Hw). rewrite Hs in Hs1. injection Hs1 as -> ->. cbn [c_st] in Hh1. split.
    + intros x (y & Hy & Hy')%Hdom. rewrite Hy' Hh1. by apply lookup_union_Some_r.
    + exists w. split; [done|]. intros x (y & Hy & _)%Hdom Hin%Hw. congruence.
Qed.

(** Cells in other hands that no other goroutine writes stay as they are. *)
Lemma prun_app o keep c1 tr1 c2 tr2 c3 : prun o keep c1 tr1 c2 → prun o keep c2 tr2 c3 → prun o keep c1 (tr1 ++ tr2) c3.
Proof.
  intros H H2. induction H as [c|c op s ph out tr c' Hok Hs Hrun IH|c h tr c' Hm Hrun IH]; [done| |].
  - cbn. eapply Pr_op; [done|done|]. by apply IH.
  - eapply Pr_others; [done|]. by apply IH.
Qed.
Lemma prun_weaken o keep c1 tr c2 : prun o keep c1 tr c2 → prun o ∅ c1 tr c2.
Proof.
  assert (Hw : ∀ (O O' : addr → Prop) h h', mutates O h h' → (∀ x, O x → O' x) → mutates O' h h').
  { intros O O' h h' H. revert O'. induction H as [O h|O h h' y c Ho Hy Hm IH|O h h' y c Hy Hm IH]; intros O' HO.
    - constructor.
    - eapply mut_write; [by apply HO|done|by apply IH].
    - eapply mut_alloc; [done|]. apply IH. intros x [Hx|Hx]; [left; by apply HO|by right]. }
  induction 1 as [c|c op s ph out tr c' Hok Hs Hrun IH|c h tr c' Hm Hrun IH]; [constructor|by eapply Pr_op|].
  eapply Pr_others; [|exact IH]. eapply Hw; [exact Hm|]. intros x [Hx _]. split; [done|]. apply not_elem_of_empty.
Qed.
Lemma heap_keep o keep s hosts tr1 c1 tr2 c2 : fair o → prun o ∅ (conf0 s hosts) tr1 c1 → keep ⊆ c_theirs c1 →
  prun o keep c1 tr2 c2 → ∀ x, x ∈ keep → s_heap (c_st c2) !! x = s_heap (c_st c1) !! x.
Proof.
  intros Ho H1 Hk H2. revert tr1 H1 Hk. induction H2 as [c|c op st ph out tr c' Hok Hs Hrun IH|c h tr c' Hm Hrun IH]; intros tr1 H1 Hk x Hx.
  - done.
  - destruct (heap_frame _ _ _ _ _ _ _ _ _ Ho H1 Hok Hs) as [Hf _].
    rewrite -(Hf x); [|by apply Hk].
    apply (IH (tr1 ++ [op])); [|set_solver|done]. eapply prun_app; [exact H1|]. eapply Pr_op; [done|done|constructor].
  - assert (Hsome : is_Some (s_heap (c_st c) !! x)).
    { destruct (run_inv _ _ _ _ _ _ _ _ Ho (hinv0 s hosts) H1) as (vtr & v & hA & hf & _ & _ & (Hd & Hh & Ht & _)).
      specialize (Ht x (Hk x Hx)). apply elem_of_dom in Ht as [y Hy]. exists y. rewrite Hh. by apply lookup_union_Some_r. }
    rewrite (IH tr1); [|  |set_solver|done].
    + cbn [c_st s_heap]. apply (mutates_frame _ _ _ Hm); [done|]. intros [_ Hn]. done.
    + rewrite -(app_nil_r tr1). eapply prun_app; [exact H1|].
      eapply prun_weaken with (keep := keep). eapply Pr_others; [exact Hm|constructor].
Qed.
