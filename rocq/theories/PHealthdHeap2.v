(** * healthd on the heap: purging, recalculating, reading *)
From Verif Require Import PHeap4 PHeap5 PHeap6.
From Verif Require Export PHealthdHeap.
#[local] Open Scope Z_scope.

(** ** truncation and purging *)
Lemma pubs_drop n l v : pubs_rep l v ⊢ pubs_rep (drop n l) (drop n v).
Proof.
  iIntros "H". iDestruct (big_sepL2_length with "H") as %Hlen. unfold pubs_rep.
  rewrite -{1}(take_drop n l) -{1}(take_drop n v).
  iDestruct (big_sepL2_app_inv with "H") as "[_ $]". left. rewrite !take_length. lia.
Qed.
Lemma wpr_truncate hr max l v : pubs_rep l v ⊢ wpr hr (p_truncate max l) (truncate_pub max v) (λ v' l', pubs_rep l' v').
Proof.
  iIntros "H". iDestruct (big_sepL2_length with "H") as %Hlen. unfold p_truncate, truncate_pub. rewrite Hlen.
  destruct (max <? _); [|by iApply wpr_ret]. destruct (_ <? _ - max); [iApply crashes_crash|].
  iApply wpr_ret. by iApply pubs_drop.
Qed.
Lemma hosts_filter ph v (P : hkey → Prop) `{!∀ k, Decision (P k)} :
  hosts_rep ph v ⊢ hosts_rep (filter (λ kd : hkey * hptr, P kd.1) ph) (filter (λ kd : hkey * dagg, P kd.1) v).
Proof.
  unfold hosts_rep. rewrite !big_sepM2_alt. iIntros "[%Hk H]". iSplit.
  - iPureIntro. intros k. pose proof (Hk k) as Hkk.
    split; intros [x [Hx HP]%map_filter_lookup_Some]; destruct Hkk as [K1 K2].
    + destruct (K1 (mk_is_Some _ _ Hx)) as [y Hy]. exists y. by apply map_filter_lookup_Some.
    + destruct (K2 (mk_is_Some _ _ Hx)) as [y Hy]. exists y. by apply map_filter_lookup_Some.
  - iApply (big_sepM_subseteq with "H"). apply map_subseteq_spec. intros k [x d] Hz.
    apply map_lookup_zip_with_Some in Hz as (x' & d' & He & Hx & Hd). injection He as -> ->.
    apply map_filter_lookup_Some in Hx as [Hx _]. apply map_filter_lookup_Some in Hd as [Hd _].
    apply map_lookup_zip_with_Some. by exists x', d'.
Qed.
Lemma wpr_purge hr ph v now : hd_rep ph v ⊢ wpr hr (p_purge ph now) (purge v now) (λ v' ph', hd_rep ph' v').
Proof.
  iIntros "(%He & Hp & Hh)". destruct He as (E1 & E2 & E3 & E4). unfold p_purge, purge. cbv zeta.
  rewrite E2. iApply wpr_bind. iApply (wpr_wand with "[Hp]"); [by iApply wpr_truncate|].
  iIntros (v' l') "Hp". iApply wpr_ret. iFrame. cbn. iSplit; [done|]. rewrite E1.
  by iApply (hosts_filter _ _ (λ k, ¬ (w64 (hd_dur v * 5) < since (now k) (key_time k).1))).
Qed.

(** ** recalculation *)
Definition at_keys (v : gmap hkey dagg) (ks : list hkey) : list dagg := omap (λ key, v !! key) ks.

Lemma wpr_merge_loop hr p a ph v ks :
  hosts_rep ph v -∗ ia_rep p a -∗
  wpr hr (hfold (λ _ key, match ph !! key with
                       | Some x => if hp_null x then hcrash "nil pointer dereference" else h_merge_ia p (hp_addr x)
                       | None => hret tt
                       end) ks tt)
    (if existsb d_null (at_keys v ks) then Crash "nil pointer dereference" else Ok (fold_left ia_merge (map d_ia (at_keys v ks)) a))
    (λ a' _, hosts_rep ph v ∗ ia_rep p a').
Proof.
  revert a. induction ks as [|key ks IH]; intros a; iIntros "Hh Hp".
  - cbn. iApply wp_ret. iFrame.
  - cbn [hfold at_keys omap list_omap]. change (list_omap _ _ (λ key, v !! key) ks) with (at_keys v ks).
    iDestruct (big_sepM2_lookup_iff with "Hh") as %Hk.
    destruct (v !! key) as [d|] eqn:Hv.
    + destruct (ph !! key) as [x|] eqn:Hx.
      2:{ exfalso. specialize (Hk key). rewrite Hx Hv in Hk. destruct Hk as [_ Hk]. destruct Hk; done. }
      iDestruct (big_sepM2_lookup_acc with "Hh") as "[Hq Hh]"; [done|done|].
      iDestruct "Hq" as "[%Hqe Hq]". destruct Hqe as [Hloc Hnull]. rewrite Hnull. cbn [existsb map fold_left].
      destruct (d_null d) eqn:Hdn; cbn [orb].
      { iApply crashes_l. iApply crashes_crash. }
      iApply wpr_step. iApply (wp_wand with "[Hp Hq]").
      { iApply (wp_share2 _ _ (λ _, ia_rep p (ia_merge a (d_ia d))) (ia_rep (hp_addr x) (d_ia d)) (ia_rep p a)); [|iFrame].
        intros h1 Hh1. iIntros "H". iApply (wp_merge_ia with "H"); [by apply ia_shows|]. iIntros "H". done. }
      iIntros ([]) "[Hq Hp]". iSpecialize ("Hh" with "[Hq]"); [iFrame; iPureIntro; by rewrite Hnull Hdn|]. iApply (IH with "Hh Hp").
    + assert (ph !! key = None) as ->.
      { apply eq_None_not_Some. intros H%Hk. rewrite Hv in H. by destruct H. }
      iApply wpr_step. iApply wp_ret. iApply (IH with "Hh Hp").
Qed.

Definition look (v : gmap hkey dagg) (key : hkey) : option (hkey * dagg) := (key,.) <$> v !! key.
Lemma at_keys_filter v k ks :
  map snd (filter (λ kd : hkey * dagg, key_time kd.1 = k) (omap (look v) ks)) = at_keys v (filter (λ key, key_time key = k) ks).
Proof.
  induction ks as [|key ks IH]; [done|]. cbn [omap list_omap]. unfold look at 1. rewrite filter_cons.
  destruct (v !! key) as [d|] eqn:Hv; cbn [fmap option_fmap option_map].
  - rewrite filter_cons. cbn [fst]. destruct (decide _) as [Hk|Hk].
    + cbn [map snd]. unfold at_keys. cbn [omap list_omap]. rewrite Hv. f_equal. exact IH.
    + exact IH.
  - rewrite IH. destruct (decide _); [|done]. unfold at_keys. cbn [omap list_omap]. by rewrite Hv.
Qed.

Lemma wpr_merge_entries hr k ph v ks :
  hosts_rep ph v ⊢
  wpr hr (p_merge_entries k ph ks) (merge_entries k (map snd (filter (λ kd : hkey * dagg, key_time kd.1 = k) (omap (look v) ks))))
    (λ p q, hosts_rep ph v ∗ pub_rep q p ∗ ⌜ia_start (pa_ia p) = k.1 ∧ pa_loc p = k.2⌝).
Proof.
  iIntros "Hh". rewrite at_keys_filter. unfold p_merge_entries, merge_entries.
  set (ks' := filter _ ks).
  iApply wpr_step. iApply wp_new_ia. iIntros (p) "Hp".
  iDestruct (wpr_merge_loop hr p _ ph v ks' with "Hh Hp") as "H".
  destruct (existsb d_null (at_keys v ks')); cbn.
  - by iApply crashes_l.
  - iApply wp_bind. iApply (wp_wand with "H"). iIntros (_) "[Hh Hp]". iApply wp_ret. iFrame. cbn. iPureIntro.
    split; [done|]. split; [|done]. clear. unfold merge_all. generalize (map d_ia (at_keys v ks')). intros l.
    assert (H : ∀ a, ia_start (fold_left ia_merge l a) = ia_start a); [|by rewrite H].
    induction l as [|b l IH]; intros a; cbn; [done|]. by rewrite IH.
Qed.

Lemma wp_start hr q p (Q : Z → hP) :
  pub_rep q p -∗ (pub_rep q p -∗ Q (ia_start (pa_ia p))) -∗ wp hr (p_start q) Q.
Proof.
  iIntros "[%He Hp] HQ". unfold p_start. wbind. iApply (wp_load_rep with "Hp"). iIntros (i [Hs _]) "Hp". iApply wp_ret.
  rewrite Hs. iApply "HQ". by iFrame.
Qed.

Lemma wp_replace hr l v q p :
  pp_loc q = pa_loc p → pubs_rep l v ⊢
  wp hr (p_replace l (ia_start (pa_ia p)) q)
    (λ r, match replace_pub v p with
          | Some v' => ∃ l', ⌜r = Some l'⌝ ∗ (pub_rep q p -∗ pubs_rep l' v')
          | None => ⌜r = None⌝ ∗ pubs_rep l v
          end).
Proof.
  intros Hloc. revert v. induction l as [|q0 l IH]; intros v; iIntros "H".
  - destruct v as [|p0 v]; [|done]. cbn. iApply wp_ret. by iFrame.
  - destruct v as [|p0 v]; [done|]. iDestruct "H" as "[H0 H]". cbn [p_replace replace_pub].
    wbind. iApply (wp_start with "H0"). iIntros "H0".
    iAssert (⌜pp_loc q0 = pa_loc p0⌝)%I as %H0. { iDestruct "H0" as "[%E _]". done. }
    rewrite H0 Hloc. change (ia_start (pa_ia p0), pa_loc p0) with (pa_time p0).
    change (ia_start (pa_ia p), pa_loc p) with (pa_time p).
    destruct (bool_decide (pa_time p0 = pa_time p)).
    + iApply wp_ret. iExists _. iSplit; [done|]. iIntros "Hq". unfold pubs_rep. cbn. iFrame.
    + wbind. iApply (wp_wand with "[H]"); [by iApply IH|]. iIntros (r) "H". iApply wp_ret.
      destruct (replace_pub v p) as [v'|]; cbn.
      * iDestruct "H" as (l') "[-> H]". iExists _. iSplit; [done|]. iIntros "Hq". cbn. iFrame. by iApply "H".
      * iDestruct "H" as "[-> H]". by iFrame.
Qed.

Lemma omap_fmap_lookup {A B} (f : A → B) (l : list A) (ix : list nat) : omap ((f <$> l) !!.) ix = f <$> omap (l !!.) ix.
Proof.
  induction ix as [|i ix IH]; [done|]. cbn. rewrite list_lookup_fmap. destruct (l !! i); cbn; by rewrite IH.
Qed.
Lemma omap_seq {A} (l : list A) : omap (l !!.) (seq 0 (length l)) = l.
Proof.
  assert (H : ∀ l1 l2, l = l1 ++ l2 → omap (l !!.) (seq (length l1) (length l2)) = l2); [|by apply (H [])].
  intros l1 l2. revert l1. induction l2 as [|x l2 IH]; intros l1 Hl; [done|]. cbn [seq length omap list_omap].
  assert (l !! length l1 = Some x) as ->. { rewrite Hl. by apply list_lookup_middle. }
  f_equal. specialize (IH (l1 ++ [x])). rewrite app_length /= in IH.
  replace (length l1 + 1)%nat with (S (length l1)) in IH by lia. apply IH. by rewrite -app_assoc.
Qed.
Lemma omap_zip {A B} (l : list A) (v : list B) (ix : list nat) : length l = length v →
  zip (omap (l !!.) ix) (omap (v !!.) ix) = omap (zip l v !!.) ix ∧ length (omap (l !!.) ix) = length (omap (v !!.) ix).
Proof.
  intros Hlen. induction ix as [|i ix [IH1 IH2]]; [done|]. cbn [omap list_omap].
  destruct (l !! i) as [x|] eqn:Hx.
  - destruct (lookup_lt_is_Some_2 v i) as [y Hy]; [rewrite -Hlen; by eapply lookup_lt_Some|].
    rewrite Hy. assert (zip l v !! i = Some (x, y)) as ->.
    { apply lookup_zip_with_Some. by exists x, y. }
    cbn. split; f_equal; [exact IH1|exact IH2].
  - assert (v !! i = None) as ->. { apply lookup_ge_None. apply lookup_ge_None in Hx. lia. }
    assert (zip l v !! i = None) as ->. { apply lookup_ge_None. rewrite zip_with_length_l; [|lia]. by apply lookup_ge_None in Hx. }
    done.
Qed.
Lemma pubs_perm l v (ix : list nat) : ix ≡ₚ seq 0 (length l) → pubs_rep l v ⊢ pubs_rep (omap (l !!.) ix) (omap (v !!.) ix).
Proof.
  intros His. unfold pubs_rep. rewrite !big_sepL2_alt. iIntros "[%Hlen H]".
  destruct (omap_zip l v ix Hlen) as [Hz Hl]. rewrite Hz. iSplit; [done|].
  assert (Hp : omap (zip l v !!.) ix ≡ₚ zip l v).
  { rewrite -{2}(omap_seq (zip l v)) zip_with_length_l; [|lia]. by apply omap_Permutation. }
  by rewrite (big_opL_permutation _ _ _ Hp).
Qed.

Definition starts (v : list pagg) : list Z := (λ p, ia_start (pa_ia p)) <$> v.
Lemma wp_starts hr l v :
  pubs_rep l v ⊢ wp hr (hfold (λ ts q, t ←h p_start q; hret (ts ++ [t])) l []) (λ ts, pubs_rep l v ∗ ⌜ts = starts v⌝).
Proof.
  assert (H : ∀ ts l1 v1 l v, pubs_rep l1 v1 -∗ pubs_rep l v -∗
    wp hr (hfold (λ ts q, t ←h p_start q; hret (ts ++ [t])) l ts) (λ ts', pubs_rep (l1 ++ l) (v1 ++ v) ∗ ⌜ts' = ts ++ starts v⌝)).
  { intros ts l1 v1 l0. revert ts l1 v1. induction l0 as [|q l0 IH]; intros ts l1 v1 v0; iIntros "H1 H".
    - destruct v0; [|done]. cbn. iApply wp_ret. rewrite !app_nil_r. by iFrame.
    - destruct v0 as [|p v0]; [done|]. iDestruct "H" as "[Hq H]". cbn [hfold]. wbind. wbind.
      iApply (wp_start with "Hq"). iIntros "Hq". iApply wp_ret.
      iApply (wp_wand with "[H1 Hq H]").
      { iApply (IH _ (l1 ++ [q]) (v1 ++ [p]) v0 with "[H1 Hq] H"). iApply (big_sepL2_app with "H1"). by iFrame. }
      iIntros (ts') "[H %Ht]". rewrite -!app_assoc. iFrame. iPureIntro. rewrite Ht -app_assoc. done. }
  iIntros "H". iApply (H [] [] [] l v with "[] H"). by unfold pubs_rep.
Qed.

Definition vsort (perm : list Z → list nat) (l : list pagg) : list pagg := omap (l !!.) (perm (starts l)).
Lemma vsort_ok perm : perm_ok perm → is_sorter (vsort perm).
Proof.
  intros H l. destruct (H (starts l)) as [H1 H2]. unfold starts in H1 at 2. rewrite fmap_length in H1. split.
  - unfold vsort. etrans; [by apply omap_Permutation|]. by rewrite omap_seq.
  - unfold vsort. unfold starts in H2 at 1. rewrite omap_fmap_lookup in H2.
    revert H2. generalize (omap (l !!.) (perm (starts l))). intros l'. clear. induction l' as [|x l' IH]; cbn; intros H.
    + constructor.
    + apply StronglySorted_inv in H as [Hs Hf]. constructor; [by apply IH|].
      rewrite Forall_fmap in Hf. exact Hf.
Qed.

Lemma wpr_set_aggregation hr perm max l v q p :
  perm_ok perm → pubs_rep l v -∗ pub_rep q p -∗
  wpr hr (p_set_aggregation perm max l q) (set_aggregation (vsort perm) max v p) (λ v' l', pubs_rep l' v').
Proof.
  iIntros (Hperm) "Hl Hq". unfold p_set_aggregation, set_aggregation.
  iApply wpr_step. iApply (wp_start with "Hq"). iIntros "Hq".
  iAssert (⌜pp_loc q = pa_loc p⌝)%I as %H0. { iDestruct "Hq" as "[%E _]". done. }
  iApply wpr_step. iApply (wp_wand with "[Hl]"); [by iApply wp_replace|]. iIntros (r) "H".
  destruct (replace_pub v p) as [v'|].
  - iDestruct "H" as (l') "[-> H]". iApply wpr_ret. by iApply "H".
  - iDestruct "H" as "[-> H]". unfold p_sort.
    iAssert (pubs_rep (l ++ [q]) (v ++ [p])) with "[H Hq]" as "H". { iApply (big_sepL2_app with "H"). by iFrame. }
    iDestruct (big_sepL2_length with "H") as %Hlen.
    iApply wpr_step. iApply wp_bind. iApply (wp_wand with "[H]"); [by iApply wp_starts|].
    iIntros (ts) "[H ->]". iApply wp_ret. iApply wpr_truncate. iApply (pubs_perm with "H").
    destruct (Hperm (starts (v ++ [p]))) as [H1 _]. rewrite H1. unfold starts. by rewrite fmap_length Hlen.
Qed.

Definition vorder (o : porder) (v : gmap hkey dagg) : rorder :=
  ROrder (po_times o) (λ k, omap (look v) (po_keys o k)) (vsort (po_perm o)).
Lemma wpr_recalc_loop hr o max ph vh ks l v :
  perm_ok (po_perm o) → hosts_rep ph vh -∗ pubs_rep l v -∗
  wpr hr (p_recalc_loop o max ph ks l) (recalc_loop (vorder o vh) max ks v) (λ v' l', hosts_rep ph vh ∗ pubs_rep l' v').
Proof.
  intros Hperm. revert l v. induction ks as [|k ks IH]; intros l v; iIntros "Hh Hl".
  - cbn. iApply wp_ret. iFrame.
  - cbn [p_recalc_loop recalc_loop]. iApply wpr_bind. iApply (wpr_wand with "[Hh]").
    { iApply (wpr_merge_entries with "Hh"). }
    iIntros (p q) "(Hh & Hq & _)". iApply wpr_bind. iApply (wpr_wand with "[Hl Hq]").
    { iApply (wpr_set_aggregation with "Hl Hq"). exact Hperm. }
    iIntros (v' l') "Hl". iApply (IH with "Hh Hl").
Qed.
Lemma wpr_recalc hr ph v o :
  perm_ok (po_perm o) → hd_rep ph v ⊢ wpr hr (p_recalc ph o) (recalc v (vorder o (hd_host v))) (λ v' ph', hd_rep ph' v').
Proof.
  iIntros (Hperm) "(%He & Hp & Hh)". destruct He as (E1 & E2 & E3 & E4). unfold p_recalc, recalc.
  rewrite E2. cbn [ro_keys vorder]. iApply wpr_bind. iApply (wpr_wand with "[Hp Hh]"); [iApply (wpr_recalc_loop with "Hh Hp"); exact Hperm|].
  iIntros (v' l') "[Hh Hp]". iApply wpr_ret. iFrame. cbn. by iPureIntro.
Qed.

(** the order given to the value model is one of its own *)
Lemma vorder_ok ph v o : (∀ key, is_Some (ph_host ph !! key) ↔ is_Some (hd_host v !! key)) → ph_need ph = hd_need v →
  porder_ok ph o → rorder_ok v (vorder o (hd_host v)) ∧ ∀ k, (ro_entries (vorder o (hd_host v)) k).*1 = po_keys o k.
Proof.
  intros Hk Hn (H1 & H2 & H3).
  assert (Hks : ∀ ks, (∀ key, key ∈ ks → is_Some (hd_host v !! key)) → (omap (look (hd_host v)) ks).*1 = ks).
  { induction ks as [|key ks IH]; intros H; [done|]. cbn [omap list_omap]. unfold look at 1.
    destruct (H key) as [d Hd]; [constructor|]. rewrite Hd. cbn. f_equal. apply IH. intros key' Hin. apply H. by constructor. }
  assert (Hsome : ∀ k key, key ∈ po_keys o k → is_Some (hd_host v !! key)).
  { intros k key. rewrite H2 elem_of_list_fmap. intros ([key' x] & -> & Hin%elem_of_map_to_list). apply Hk. cbn. by exists x. }
  assert (Hdom : (map_to_list (ph_host ph)).*1 ≡ₚ (map_to_list (hd_host v)).*1).
  { apply NoDup_Permutation; [apply NoDup_fst_map_to_list|apply NoDup_fst_map_to_list|]. intros key.
    rewrite !elem_of_list_fmap. specialize (Hk key). destruct Hk as [K1 K2]. split.
    - intros ([key' x] & -> & Hin%elem_of_map_to_list). destruct (K1 (mk_is_Some _ _ Hin)) as [d Hd].
      exists (key', d). split; [done|]. by apply elem_of_map_to_list.
    - intros ([key' x] & -> & Hin%elem_of_map_to_list). destruct (K2 (mk_is_Some _ _ Hin)) as [d Hd].
      exists (key', d). split; [done|]. by apply elem_of_map_to_list. }
  split; [|intros k; cbn; apply Hks, Hsome].
  split; [|split].
  - cbn. by rewrite H1 Hn.
  - intros k. cbn. rewrite (omap_Permutation _ _ _ (H2 k)). rewrite (omap_Permutation _ _ _ Hdom).
    assert (HH : ∀ l, (∀ kd, kd ∈ l → hd_host v !! kd.1 = Some kd.2) → omap (look (hd_host v)) l.*1 = l).
    { clear. induction l as [|[key d] l IH]; intros H; [done|]. cbn [fmap list_fmap omap list_omap fst]. unfold look at 1.
      rewrite (H (key, d)); [|constructor]. cbn. f_equal. apply IH. intros kd Hin. apply H. by constructor. }
    rewrite HH; [done|]. intros [key d] Hin%elem_of_map_to_list. done.
  - cbn. by apply vsort_ok.
Qed.

Lemma rbind_ok {A} (r : res A) : (x ←r r; Ok x) = r.
Proof. by destruct r. Qed.

(** ** reading *)
Definition snap_rep (sl : slice) (l : list ia) : hP :=
  (∃ cap ps, arr_own sl cap ps ∗ [∗ list] p;a ∈ ps;l, ia_rep p a)%I.
Lemma wp_safe_intervals hr ph v :
  Forall2 (shows_pub hr) (ph_pub ph) (hd_pub v) → ⊢ wp hr (p_safe_intervals ph) (λ sl, snap_rep sl (pa_ia <$> hd_pub v)).
Proof.
  intros Hs. unfold p_safe_intervals. iStartProof. wbind. iApply wp_make. iIntros (sl) "Ha".
  assert (H : ∀ l v, Forall2 (shows_pub hr) l v → ∀ v0 sl cap ps, arr_own sl cap ps -∗ ([∗ list] p;a ∈ ps;pa_ia <$> v0, ia_rep p a) -∗
    wp hr (hfold (λ out q, c ←h h_clone_ia (pp_addr q); h_append out c) l sl)
      (λ sl, snap_rep sl (pa_ia <$> (v0 ++ v)))).
  { intros l v1. induction 1 as [|q p l v1 [_ Hp] Hl IH]; intros v0 sl' cap ps; iIntros "Ha Hps".
    - cbn. iApply wp_ret. rewrite app_nil_r. iExists cap, ps. iFrame.
    - cbn [hfold]. wbind. wbind. iApply wp_clone_ia; [exact Hp|].
      iIntros (c) "Hc". iApply (wp_append with "Ha"). iIntros (sl2 cap2) "Ha".
      iApply (wp_wand with "[Ha Hps Hc]").
      { iApply (IH (v0 ++ [p]) sl2 cap2 (ps ++ [c]) with "Ha [Hps Hc]").
        rewrite fmap_app. iApply (big_sepL2_app with "Hps"). by iFrame. }
      iIntros (sl3) "H". by rewrite -app_assoc. }
  by iApply (H _ _ Hs [] sl _ [] with "Ha []").
Qed.

(** ** one operation *)
Definition vstep (v : MHealthd.hd) (op : pop) : res MHealthd.hd :=
  match op with
  | PResp r t1 t2 => hstep v (HResp r t1 t2)
  | PPurge now => hstep v (HPurge now)
  | PRecalc o => hstep v (HRecalc (vorder o (hd_host v)))
  | PRead => Ok v
  end.
Lemma wpr_pstep hr ph v op : ¬ is_read op → pop_ok ph op → hd_rep ph v ⊢
  wpr hr (p_step ph op) (vstep v op) (λ v' r, hd_rep r.1 v' ∗ ⌜r.2 = None⌝).
Proof.
  intros Hr Hok. iIntros "H". unfold p_step, vstep. destruct op as [r t1 t2|now|o|]; [| | |done].
  - iApply wpr_step. iApply wp_decoded. iIntros (xs) "Hx". cbn [hstep].
    rewrite -(rbind_ok (consume v r t1 t2)).
    iApply wpr_bind. iApply (wpr_wand with "[H Hx]"); [iApply (wpr_consume with "H Hx")|].
    iIntros (v' ph') "H". iApply wpr_ret. by iFrame.
  - cbn [hstep]. rewrite -(rbind_ok (purge v now)).
    iApply wpr_bind. iApply (wpr_wand with "[H]"); [iApply (wpr_purge with "H")|].
    iIntros (v' ph') "H". iApply wpr_ret. by iFrame.
  - cbn [hstep]. rewrite -(rbind_ok (recalc v _)).
    iApply wpr_bind. iApply (wpr_wand with "[H]"); [iApply (wpr_recalc with "H"); apply Hok|].
    iIntros (v' ph') "H". iApply wpr_ret. by iFrame.
Qed.
