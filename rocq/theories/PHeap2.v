(** * Clone, Merge and the Emit methods on the heap *)
From Verif Require Import PMerge.
From Verif Require Export PHeap.
#[local] Open Scope Z_scope.

(** a pointer to a map of pointers *)
Definition pmap {V} (K : gmap string addr → cell) (R : addr → V → hP) (p : addr) (m : gmap string V) : hP :=
  (∃ pm, p ↦ K pm ∗ [∗ map] q;v ∈ pm;m, R q v)%I.
Definition timer_rep (p : addr) (t : timer) : hP := p ↦ VTimer t.
Definition errc_rep (p : addr) (t : errc) : hP := p ↦ VErrc t.
Definition maps_rep (hm : hmaps) (am : amaps) : hP :=
  (pmap VTimers timer_rep (hm_timers hm) (am_timers am) ∗
   hm_gauges hm ↦ VGauges (am_gauges am) ∗
   hm_events hm ↦ VEvents (am_events am) ∗
   pmap VErrs errc_rep (hm_errs hm) (am_errs am))%I.
Definition mkjob (maps : hmaps) (j : jobagg) : hjob :=
  HJob maps (j_timer j) (j_success j) (j_verror j) (j_panic j) (j_error j) (j_junk j).
Definition job_rep (p : addr) (j : jobagg) : hP :=
  (∃ maps, p ↦ VJob (mkjob maps j) ∗ maps_rep maps (j_maps j))%I.
Definition ia_rep (p : addr) (a : ia) : hP :=
  (∃ jobs maps, p ↦ VIa (HIA (ia_start a) (ia_serial a) jobs maps) ∗
     pmap VJobs job_rep jobs (ia_jobs a) ∗ maps_rep maps (ia_maps a))%I.

(** ** loops *)
Lemma wp_loop {X B C} hr (S : X → hP) (step : X → C → X) (rel : B → C → Prop) body l lv x (Q : unit → hP) :
  (∀ x b c, rel b c → S x ⊢ wp hr (body tt b) (λ _, S (step x c))) →
  Forall2 rel l lv →
  S x -∗ (S (fold_left step lv x) -∗ Q tt) -∗ wp hr (hfold body l tt) Q.
Proof.
  intros Hb Hl. revert x. induction Hl as [|b c l lv Hr Hl IH]; intros x; iIntros "HS HQ"; cbn.
  - iApply wp_ret. by iApply "HQ".
  - iApply wp_bind. iApply (wp_wand with "[HS]"); [by iApply Hb|].
    iIntros ([]) "HS". by iApply (IH with "HS").
Qed.

Lemma Forall2_eq_refl {A} (l : list A) : Forall2 eq l l.
Proof. induction l; constructor; done. Qed.

Definition kvrel {V} (sh : addr → V → Prop) (kq : string * addr) (kv : string * V) : Prop :=
  kq.1 = kv.1 ∧ sh kq.2 kv.2.

(** the values met by a loop over a map of pointers *)
Lemma enum_vals {V} (sh : addr → V → Prop) (src : gmap string addr) (vals : gmap string V) l :
  l ≡ₚ map_to_list src → same_entries sh src vals →
  ∃ lv, Forall2 (kvrel sh) l lv ∧ enumerates lv vals.
Proof.
  intros Hl He.
  assert (HF : Forall (λ kq, ∃ kv, kq.1 = kv.1 ∧ sh kq.2 kv.2 ∧ vals !! kv.1 = Some kv.2) l).
  { apply Forall_forall. intros [k q] Hin. rewrite Hl in Hin. apply elem_of_map_to_list in Hin.
    specialize (He k). rewrite Hin in He. destruct (vals !! k) as [v|] eqn:Hv; [|done].
    exists (k, v). done. }
  assert (∃ lv, Forall2 (λ kq kv, kq.1 = kv.1 ∧ sh kq.2 kv.2 ∧ vals !! kv.1 = Some kv.2) l lv) as [lv HF2].
  { clear -HF. induction HF as [|kq l [kv Hkv] HF [lv IH]]; [exists []; constructor|].
    exists (kv :: lv). by constructor. }
  exists lv. split.
  { eapply Forall2_impl; [exact HF2|]. unfold kvrel. naive_solver. }
  assert (Hk : l.*1 = lv.*1).
  { clear -HF2. induction HF2 as [|??? ? [? _]]; cbn; [done|]. by f_equal. }
  assert (Hnd : NoDup lv.*1).
  { rewrite -Hk Hl. apply NoDup_fst_map_to_list. }
  unfold enumerates. apply NoDup_Permutation.
  - by eapply NoDup_fmap_1.
  - apply NoDup_map_to_list.
  - intros [k v]. rewrite elem_of_map_to_list. split.
    + intros Hin. apply elem_of_list_lookup in Hin as [i Hi].
      destruct (Forall2_lookup_r _ _ _ _ _ HF2 Hi) as (kq & _ & _ & _ & H). done.
    + intros Hv. specialize (He k). rewrite Hv in He.
      destruct (src !! k) as [q|] eqn:Hq; [|done].
      assert (Hin : (k, q) ∈ l) by (rewrite Hl; by apply elem_of_map_to_list).
      apply elem_of_list_lookup in Hin as [i Hi].
      destruct (Forall2_lookup_l _ _ _ _ _ HF2 Hi) as ([k' v'] & Hi' & Hkk & _ & H). cbn in *. subst k'.
      rewrite Hv in H. injection H as ->. by eapply elem_of_list_lookup_2.
Qed.

(** ** maps of pointers *)
Section pmaps.
  Context {V : Type} (K : gmap string addr → cell) (R : addr → V → hP).

  (** one entry of the map *)
  Lemma pm_acc pm m k q v p :
    pm !! k = Some q → m !! k = Some v →
    p ↦ K pm -∗ ([∗ map] q;v ∈ pm;m, R q v) -∗
    R q v ∗ (∀ v', R q v' -∗ pmap K R p (<[k := v']> m)).
  Proof.
    iIntros (Hq Hv) "Hp Hm".
    iDestruct (big_sepM2_insert_acc with "Hm") as "[Hv Hm]"; [done|done|].
    iFrame. iIntros (v') "Hv". iSpecialize ("Hm" $! q v' with "Hv").
    rewrite (insert_id pm); [|done]. iExists pm. iFrame.
  Qed.

  Lemma pm_keys (pm : gmap string addr) (m : gmap string V) :
    ([∗ map] q;v ∈ pm;m, R q v) ⊢ ⌜∀ k, is_Some (pm !! k) ↔ is_Some (m !! k)⌝.
  Proof. apply big_sepM2_lookup_iff. Qed.

  Lemma pm_add pm m k q v p :
    m !! k = None →
    p ↦ K (<[k := q]> pm) -∗ ([∗ map] q;v ∈ pm;m, R q v) -∗ R q v -∗ pmap K R p (<[k := v]> m).
  Proof.
    iIntros (Hm) "Hp Hm Hv". iDestruct (pm_keys with "Hm") as %Hk.
    assert (Hpm : pm !! k = None).
    { apply eq_None_not_Some. intros H%Hk. rewrite Hm in H. by destruct H. }
    iExists _. iFrame. iApply big_sepM2_insert; [done|done|]. iFrame.
  Qed.

  (** overwriting an entry *)
  Lemma pm_put pm m k q v p :
    p ↦ K (<[k := q]> pm) -∗ ([∗ map] q;v ∈ pm;m, R q v) -∗ R q v -∗ pmap K R p (<[k := v]> m).
  Proof.
    iIntros "Hp Hm Hv". destruct (m !! k) as [w|] eqn:Hm; [|by iApply (pm_add with "Hp Hm Hv")].
    iDestruct (pm_keys with "Hm") as %Hk.
    destruct (pm !! k) as [q'|] eqn:Hq.
    - iDestruct (big_sepM2_insert_acc with "Hm") as "[_ Hm]"; [done|done|].
      iExists _. iFrame. by iApply "Hm".
    - specialize (Hk k). rewrite Hq Hm in Hk. destruct Hk as [_ Hk]. destruct Hk; done.
  Qed.

  Lemma pmap_empty p : p ↦ K ∅ ⊢ pmap K R p ∅.
  Proof. iIntros "Hp". iExists ∅. iFrame. done. Qed.
End pmaps.

(** ** read-only reading of a map of pointers *)
Ltac wbind := iApply wp_bind.

Section steps.
  Context (hr : heap).

  Lemma wp_init_maps Q : (∀ hm, maps_rep hm amaps0 -∗ Q hm) ⊢ wp hr h_init_maps Q.
  Proof.
    iIntros "HQ". unfold h_init_maps.
    wbind. iApply wp_alloc. iIntros (t) "Ht".
    wbind. iApply wp_alloc. iIntros (g) "Hg".
    wbind. iApply wp_alloc. iIntros (e) "He".
    wbind. iApply wp_alloc. iIntros (r) "Hr".
    iApply wp_ret. iApply "HQ". unfold maps_rep. cbn. iFrame.
    iSplitL "Ht"; by iApply pmap_empty.
  Qed.

  Lemma wp_new_ia start Q : (∀ p, ia_rep p (new_ia start) -∗ Q p) ⊢ wp hr (h_new_ia start) Q.
  Proof.
    iIntros "HQ". unfold h_new_ia.
    wbind. iApply wp_alloc. iIntros (j) "Hj".
    wbind. iApply wp_init_maps. iIntros (hm) "Hm".
    iApply wp_alloc. iIntros (p) "Hp". iApply "HQ". iExists j, hm. cbn. iFrame.
    by iApply pmap_empty.
  Qed.

  (** ** Clone *)
  Lemma wp_clone_timer q t Q : shows_timer hr q t →
    (∀ q', timer_rep q' t -∗ Q q') ⊢ wp hr (h_clone_timer q) Q.
  Proof.
    intros H. iIntros "HQ". wbind. iApply wp_ro_timer; [done|]. by iApply wp_alloc.
  Qed.
  Lemma wp_clone_errc q t Q : shows_errc hr q t →
    (∀ q', errc_rep q' t -∗ Q q') ⊢ wp hr (h_clone_errc q) Q.
  Proof.
    intros H. iIntros "HQ". wbind. iApply wp_ro_errc; [done|]. by iApply wp_alloc.
  Qed.

  Definition put {V} (m : gmap string V) (kv : string * V) : gmap string V := <[kv.1 := kv.2]> m.
  Lemma fold_put {V} (m : gmap string V) lv : enumerates lv m → fold_left put lv ∅ = m.
  Proof.
    intros He. unfold enumerates in He.
    assert (Hnd : NoDup lv.*1) by (rewrite He; apply NoDup_fst_map_to_list).
    assert (H : ∀ (acc : gmap string V), NoDup lv.*1 → fold_left put lv acc = list_to_map lv ∪ acc).
    { clear. induction lv as [|[k v] lv IH]; intros acc Hnd; cbn.
      - by rewrite (left_id_L _ _).
      - cbn in Hnd. apply NoDup_cons in Hnd as [Hk Hnd]. rewrite IH; [|done].
        unfold put. cbn. apply map_eq. intros i. rewrite !lookup_union.
        destruct (decide (i = k)) as [->|Hne].
        + rewrite !lookup_insert. rewrite not_elem_of_list_to_map_1; [|done]. by destruct (acc !! k).
        + rewrite !lookup_insert_ne; [|done|done]. done. }
    rewrite H; [|done]. rewrite (right_id_L _ _). rewrite -(list_to_map_to_list m).
    by apply list_to_map_proper.
  Qed.

  Lemma wp_clone_maps hm am Q : shows_maps hr hm am →
    (∀ hm', maps_rep hm' am -∗ Q hm') ⊢ wp hr (h_clone_maps hm) Q.
  Proof.
    intros ((pt & Hpt & Ht) & Hg & He & (pr & Hpr & Hr)). iIntros "HQ". unfold h_clone_maps.
    wbind. iApply wp_init_maps. iIntros (dup) "(Dt & Dg & De & Dr)". cbn.
    (* events *)
    wbind. iApply wp_ro_events; [done|]. wbind. iApply wp_hrange. iIntros (l Hl).
    wbind. iApply (wp_loop hr (λ m, hm_events dup ↦ VEvents m)%I put eq _ l l ∅ with "De").
    { intros m b ? <-. iIntros "H". wbind. iApply (wp_load_events with "H"). iIntros "H".
      iApply (wp_store with "H"). iIntros "H". done. }
    { apply Forall2_eq_refl. }
    rewrite (fold_put (am_events am)); [|done]. iIntros "De".
    (* gauges *)
    wbind. iApply wp_ro_gauges; [done|]. wbind. iApply wp_hrange. clear l Hl. iIntros (l Hl).
    wbind. iApply (wp_loop hr (λ m, hm_gauges dup ↦ VGauges m)%I put eq _ l l ∅ with "Dg").
    { intros m b ? <-. iIntros "H". wbind. iApply (wp_load_gauges with "H"). iIntros "H".
      iApply (wp_store with "H"). iIntros "H". done. }
    { apply Forall2_eq_refl. }
    rewrite (fold_put (am_gauges am)); [|done]. iIntros "Dg".
    (* timers *)
    wbind. iApply wp_ro_timers; [done|]. wbind. iApply wp_hrange. clear l Hl. iIntros (l Hl).
    destruct (enum_vals _ _ _ _ Hl Ht) as (lv & HF & Hlv).
    wbind. iApply (wp_loop hr (λ m, pmap VTimers timer_rep (hm_timers dup) m) put (kvrel (shows_timer hr)) _ l lv ∅ with "Dt").
    { intros m [k q] [k' v] [Hk Hs]. cbn in Hk. subst k'. iIntros "H".
      wbind. iApply wp_clone_timer; [done|]. iIntros (q') "Hq". iDestruct "H" as (pm) "[H Hm]".
      wbind. iApply (wp_load_timers with "H"). iIntros "H".
      iApply (wp_store with "H"). iIntros "H". iApply (pm_put with "H Hm Hq"). }
    { done. }
    rewrite (fold_put (am_timers am)); [|done]. iIntros "Dt".
    (* errors *)
    wbind. iApply wp_ro_errs; [done|]. wbind. iApply wp_hrange. clear l Hl lv HF Hlv. iIntros (l Hl).
    destruct (enum_vals _ _ _ _ Hl Hr) as (lv & HF & Hlv).
    wbind. iApply (wp_loop hr (λ m, pmap VErrs errc_rep (hm_errs dup) m) put (kvrel (shows_errc hr)) _ l lv ∅ with "Dr").
    { intros m [k q] [k' v] [Hk Hs]. cbn in Hk. subst k'. iIntros "H".
      wbind. iApply wp_clone_errc; [done|]. iIntros (q') "Hq". iDestruct "H" as (pm) "[H Hm]".
      wbind. iApply (wp_load_errs with "H"). iIntros "H".
      iApply (wp_store with "H"). iIntros "H". iApply (pm_put with "H Hm Hq"). }
    { done. }
    rewrite (fold_put (am_errs am)); [|done]. iIntros "Dr".
    iApply wp_ret. iApply "HQ". iFrame.
  Qed.

  Lemma wp_clone_job q j Q : shows_job hr q j →
    (∀ q', job_rep q' j -∗ Q q') ⊢ wp hr (h_clone_job q) Q.
  Proof.
    intros (maps & Hp & Hm). iIntros "HQ". unfold h_clone_job.
    wbind. iApply wp_ro_job; [done|]. wbind. iApply wp_clone_maps; [done|]. iIntros (dup) "Hd".
    iApply wp_alloc. iIntros (q') "Hq". iApply "HQ". iExists dup. iFrame.
  Qed.

  Lemma wp_clone_ia p a Q : shows hr p a →
    (∀ q, ia_rep q a -∗ Q q) ⊢ wp hr (h_clone_ia p) Q.
  Proof.
    intros (jobs & maps & pm & Hp & Hj & He & Hm). iIntros "HQ". unfold h_clone_ia.
    wbind. iApply wp_ro_ia; [done|]. cbn. wbind. iApply wp_clone_maps; [done|]. iIntros (dup) "Hd".
    wbind. iApply wp_alloc. iIntros (jobs') "Dj".
    wbind. iApply wp_ro_jobs; [done|]. wbind. iApply wp_hrange. iIntros (l Hl).
    destruct (enum_vals _ _ _ _ Hl He) as (lv & HF & Hlv).
    wbind. iApply (wp_loop hr (λ m, pmap VJobs job_rep jobs' m) put (kvrel (shows_job hr)) _ l lv ∅ with "[Dj]").
    { intros m [k q] [k' v] [Hk Hs]. cbn in Hk. subst k'. iIntros "H".
      wbind. iApply wp_clone_job; [done|]. iIntros (q') "Hq". iDestruct "H" as (pm') "[H Hm]".
      wbind. iApply (wp_load_jobs with "H"). iIntros "H".
      iApply (wp_store with "H"). iIntros "H". iApply (pm_put with "H Hm Hq"). }
    { done. }
    { by iApply pmap_empty. }
    rewrite (fold_put (ia_jobs a)); [|done]. iIntros "Dj".
    iApply wp_alloc. iIntros (q) "Hq". iApply "HQ". iExists jobs', dup. iFrame.
  Qed.

  (** ** Merge *)
  Definition mput {V} (f : V → V → V) (m : gmap string V) (kv : string * V) : gmap string V :=
    mbody f kv.1 kv.2 m.

  Lemma wp_merge_errc q a b (Q : unit → hP) :
    errc_rep q a -∗ (errc_rep q (errc_merge a b) -∗ Q tt) -∗
    wp hr (_ ←h hstore q (VErrc (Errc (w64 (ec_count a + ec_count b)) (ec_samples a) (ec_index a)));
           hfold (λ _ e, match e with
                         | Some _ => a ←h load_errc q; hstore q (VErrc (add_error a e))
                         | None => hret tt
                         end) (ec_samples b) tt) Q.
  Proof.
    iIntros "Hq HQ". wbind. iApply (wp_store with "Hq"). iIntros "Hq".
    iApply (wp_loop hr (λ a, errc_rep q a)
      (λ acc e, match e with Some x => add_error acc (Some x) | None => acc end) eq with "Hq").
    { intros x b' ? <-. iIntros "H". destruct b' as [e|]; [|by iApply wp_ret].
      wbind. iApply (wp_load_errc with "H"). iIntros "H". by iApply (wp_store with "H"); iIntros "H". }
    { apply Forall2_eq_refl. }
    iIntros "Hq". iApply "HQ". done.
  Qed.

  Lemma wp_merge_maps hma hmb a b (Q : unit → hP) : shows_maps hr hmb b →
    maps_rep hma a -∗ (maps_rep hma (amaps_merge a b) -∗ Q tt) -∗ wp hr (h_merge_maps hma hmb) Q.
  Proof.
    intros ((pt & Hpt & Ht) & Hg & He & (pr & Hpr & Hr)).
    iIntros "(Dt & Dg & De & Dr) HQ". unfold h_merge_maps.
    (* events *)
    wbind. iApply wp_ro_events; [done|]. wbind. iApply wp_hrange. iIntros (l Hl).
    wbind. iApply (wp_loop hr (λ m, hm_events hma ↦ VEvents m)%I
      (λ m kv, <[kv.1 := w64 (mget m kv.1 0 + kv.2)]> m) eq _ l l with "De").
    { intros m x ? <-. iIntros "H". wbind. iApply (wp_load_events with "H"). iIntros "H".
      iApply (wp_store with "H"). iIntros "H". done. }
    { apply Forall2_eq_refl. }
    assert (H : fold_left (λ m kv, <[kv.1 := w64 (mget m kv.1 0 + kv.2)]> m) l (am_events a) = am_events (amaps_merge a b)).
    { change (merge_events_loop l (am_events a) = am_events (amaps_merge a b)). cbn.
      apply map_eq. intros k. rewrite (merge_events_lookup l _ (am_events b)); [|done].
      by rewrite (merge_events_lookup _ _ (am_events b) k (enumerates_self _)). }
    rewrite H. clear H. iIntros "De".
    (* gauges *)
    wbind. iApply wp_ro_gauges; [done|]. wbind. iApply wp_hrange. clear l Hl. iIntros (l Hl).
    wbind. iApply (wp_loop hr (λ m, hm_gauges hma ↦ VGauges m)%I put eq _ l l with "Dg").
    { intros m x ? <-. iIntros "H". wbind. iApply (wp_load_gauges with "H"). iIntros "H".
      iApply (wp_store with "H"). iIntros "H". done. }
    { apply Forall2_eq_refl. }
    assert (H : fold_left put l (am_gauges a) = am_gauges (amaps_merge a b)).
    { change (merge_gauges_loop l (am_gauges a) = am_gauges (amaps_merge a b)). cbn.
      rewrite (merge_gauges_char l _ (am_gauges b)); [|done].
      by rewrite (merge_gauges_char _ _ (am_gauges b) (enumerates_self _)). }
    rewrite H. clear H. iIntros "Dg".
    (* timers *)
    wbind. iApply wp_ro_timers; [done|]. wbind. iApply wp_hrange. clear l Hl. iIntros (l Hl).
    destruct (enum_vals _ _ _ _ Hl Ht) as (lv & HF & Hlv).
    wbind. iApply (wp_loop hr (λ m, pmap VTimers timer_rep (hm_timers hma) m) (mput timer_merge) (kvrel (shows_timer hr)) _ l lv with "Dt").
    { intros m [k q] [k' v] [Hk Hs]. cbn in Hk. subst k'. iIntros "H". iDestruct "H" as (pm) "[H Hm]".
      iDestruct (pm_keys with "Hm") as %Hkeys. specialize (Hkeys k).
      wbind. iApply (wp_load_timers with "H"). iIntros "H". cbn. unfold mput, mbody. cbn.
      destruct (pm !! k) as [qa|] eqn:Hqa; destruct (m !! k) as [va|] eqn:Hva.
      - iDestruct (pm_acc VTimers timer_rep with "H Hm") as "[Hq Hm]"; [done|done|].
        wbind. iApply (wp_load_timer with "Hq"). iIntros "Hq".
        wbind. iApply wp_ro_timer; [done|]. iApply (wp_store with "Hq"). iIntros "Hq". by iApply "Hm".
      - destruct Hkeys as [Hk _]. destruct Hk; done.
      - destruct Hkeys as [_ Hk]. destruct Hk; done.
      - wbind. iApply wp_clone_timer; [done|]. iIntros (q') "Hq".
        iApply (wp_store with "H"). iIntros "H". iApply (pm_put with "H Hm Hq"). }
    { done. }
    assert (H : fold_left (mput timer_merge) lv (am_timers a) = am_timers (amaps_merge a b)).
    { change (merge_timers_loop lv (am_timers a) = am_timers (amaps_merge a b)). cbn.
      rewrite (merge_timers_char lv _ (am_timers b)); [|done].
      by rewrite (merge_timers_char _ _ (am_timers b) (enumerates_self _)). }
    rewrite H. clear H. iIntros "Dt".
    (* errors *)
    wbind. iApply wp_ro_errs; [done|]. wbind. iApply wp_hrange. clear l Hl lv HF Hlv. iIntros (l Hl).
    destruct (enum_vals _ _ _ _ Hl Hr) as (lv & HF & Hlv).
    iApply (wp_loop hr (λ m, pmap VErrs errc_rep (hm_errs hma) m) (mput errc_merge) (kvrel (shows_errc hr)) _ l lv with "Dr").
    { intros m [k q] [k' v] [Hk Hs]. cbn in Hk. subst k'. iIntros "H". iDestruct "H" as (pm) "[H Hm]".
      iDestruct (pm_keys with "Hm") as %Hkeys. specialize (Hkeys k).
      wbind. iApply (wp_load_errs with "H"). iIntros "H". cbn. unfold mput, mbody. cbn.
      destruct (pm !! k) as [qa|] eqn:Hqa; destruct (m !! k) as [va|] eqn:Hva.
      - iDestruct (pm_acc VErrs errc_rep with "H Hm") as "[Hq Hm]"; [done|done|].
        wbind. iApply (wp_load_errc with "Hq"). iIntros "Hq".
        wbind. iApply wp_ro_errc; [done|]. iApply (wp_merge_errc with "Hq"). iIntros "Hq". by iApply "Hm".
      - destruct Hkeys as [Hk _]. destruct Hk; done.
      - destruct Hkeys as [_ Hk]. destruct Hk; done.
      - wbind. iApply wp_clone_errc; [done|]. iIntros (q') "Hq".
        iApply (wp_store with "H"). iIntros "H". iApply (pm_put with "H Hm Hq"). }
    { done. }
    assert (H : fold_left (mput errc_merge) lv (am_errs a) = am_errs (amaps_merge a b)).
    { change (merge_errs_loop lv (am_errs a) = am_errs (amaps_merge a b)). cbn.
      rewrite (merge_errs_char lv _ (am_errs b)); [|done].
      by rewrite (merge_errs_char _ _ (am_errs b) (enumerates_self _)). }
    rewrite H. clear H. iIntros "Dr". iApply "HQ". iFrame.
  Qed.

  Lemma wp_merge_job qa qb a b (Q : unit → hP) : shows_job hr qb b →
    job_rep qa a -∗ (job_rep qa (job_merge a b) -∗ Q tt) -∗ wp hr (h_merge_job qa qb) Q.
  Proof.
    intros (mb & Hb & Hm). iIntros "Ha HQ". iDestruct "Ha" as (ma) "[Hp Ha]". unfold h_merge_job.
    wbind. iApply (wp_load_job with "Hp"). iIntros "Hp". wbind. iApply wp_ro_job; [done|].
    wbind. iApply (wp_merge_maps with "Ha"); [done|]. iIntros "Ha".
    wbind. iApply (wp_load_job with "Hp"). iIntros "Hp". wbind. iApply wp_ro_job; [done|].
    iApply (wp_store with "Hp"). iIntros "Hp". iApply "HQ". iExists ma. iFrame.
  Qed.

  Lemma wp_bump p a (Q : unit → hP) : ia_rep p a -∗ (ia_rep p (ia_bump a) -∗ Q tt) -∗ wp hr (h_bump p) Q.
  Proof.
    iIntros "Ha HQ". iDestruct "Ha" as (jobs maps) "(Hp & Hj & Hm)". unfold h_bump.
    wbind. iApply (wp_load_ia with "Hp"). iIntros "Hp".
    iApply (wp_store with "Hp"). iIntros "Hp". iApply "HQ". iExists jobs, maps. iFrame.
  Qed.

  Lemma wp_merge_ia pa pb a b (Q : unit → hP) : shows hr pb b →
    ia_rep pa a -∗ (ia_rep pa (ia_merge a b) -∗ Q tt) -∗ wp hr (h_merge_ia pa pb) Q.
  Proof.
    intros (jb & mb & pm & Hb & Hj & He & Hm). iIntros "Ha HQ".
    iDestruct "Ha" as (ja ma) "(Hp & Ja & Ma)". unfold h_merge_ia.
    wbind. iApply (wp_load_ia with "Hp"). iIntros "Hp". wbind. iApply wp_ro_ia; [done|]. cbn.
    wbind. iApply (wp_merge_maps with "Ma"); [done|]. iIntros "Ma".
    wbind. iApply wp_ro_jobs; [done|]. wbind. iApply wp_hrange. iIntros (l Hl).
    destruct (enum_vals _ _ _ _ Hl He) as (lv & HF & Hlv).
    wbind. iApply (wp_loop hr (λ m, pmap VJobs job_rep ja m) (mput job_merge) (kvrel (shows_job hr)) _ l lv with "Ja").
    { intros m [k q] [k' v] [Hk Hs]. cbn in Hk. subst k'. iIntros "H". iDestruct "H" as (pm') "[H Hm]".
      iDestruct (pm_keys with "Hm") as %Hkeys. specialize (Hkeys k).
      wbind. iApply (wp_load_jobs with "H"). iIntros "H". cbn. unfold mput, mbody. cbn.
      destruct (pm' !! k) as [qa|] eqn:Hqa; destruct (m !! k) as [va|] eqn:Hva.
      - iDestruct (pm_acc VJobs job_rep with "H Hm") as "[Hq Hm]"; [done|done|].
        iApply (wp_merge_job with "Hq"); [done|]. done.
      - destruct Hkeys as [Hk _]. destruct Hk; done.
      - destruct Hkeys as [_ Hk]. destruct Hk; done.
      - wbind. iApply wp_clone_job; [done|]. iIntros (q') "Hq".
        iApply (wp_store with "H"). iIntros "H". iApply (pm_put with "H Hm Hq"). }
    { done. }
    assert (H : fold_left (mput job_merge) lv (ia_jobs a) = ia_jobs (ia_merge a b)).
    { change (merge_jobs_loop lv (ia_jobs a) = ia_jobs (ia_merge a b)). cbn.
      rewrite (merge_jobs_char lv _ (ia_jobs b)); [|done].
      by rewrite (merge_jobs_char _ _ (ia_jobs b) (enumerates_self _)). }
    rewrite H. clear H. iIntros "Ja".
    iApply (wp_bump _ (IA (ia_start a) (ia_serial a) (ia_jobs (ia_merge a b)) (amaps_merge (ia_maps a) (ia_maps b))) with "[Hp Ja Ma]").
    { iExists ja, ma. iFrame. }
    iIntros "H". iApply "HQ". done.
  Qed.

  (** ** Emit *)
  Lemma wp_get_timers hm m event Q :
    pmap VTimers timer_rep (hm_timers hm) m -∗
    (∀ q, timer_rep q (mget m event timer0) -∗
          (∀ v', timer_rep q v' -∗ pmap VTimers timer_rep (hm_timers hm) (<[event := v']> m)) -∗ Q q) -∗
    wp hr (h_get_timers hm event) Q.
  Proof.
    iIntros "H HQ". iDestruct "H" as (pm) "[H Hm]". unfold h_get_timers.
    wbind. iApply (wp_load_timers with "H"). iIntros "H".
    iDestruct (pm_keys with "Hm") as %Hkeys. specialize (Hkeys event). unfold mget.
    destruct (pm !! event) as [q|] eqn:Hq; destruct (m !! event) as [v|] eqn:Hv; cbn.
    - iApply wp_ret. iDestruct (pm_acc VTimers timer_rep with "H Hm") as "[Hq Hm]"; [done|done|].
      by iApply ("HQ" with "Hq").
    - destruct Hkeys as [Hk _]. destruct Hk; done.
    - destruct Hkeys as [_ Hk]. destruct Hk; done.
    - wbind. iApply wp_alloc. iIntros (q) "Hq". wbind. iApply (wp_store with "H"). iIntros "H".
      iApply wp_ret. iApply ("HQ" with "Hq"). iIntros (v') "Hq". iApply (pm_put with "H Hm Hq").
  Qed.

  Lemma wp_get_errs hm m event Q :
    pmap VErrs errc_rep (hm_errs hm) m -∗
    (∀ q, errc_rep q (mget m event errc0) -∗
          (∀ v', errc_rep q v' -∗ pmap VErrs errc_rep (hm_errs hm) (<[event := v']> m)) -∗ Q q) -∗
    wp hr (h_get_errs hm event) Q.
  Proof.
    iIntros "H HQ". iDestruct "H" as (pm) "[H Hm]". unfold h_get_errs.
    wbind. iApply (wp_load_errs with "H"). iIntros "H".
    iDestruct (pm_keys with "Hm") as %Hkeys. specialize (Hkeys event). unfold mget.
    destruct (pm !! event) as [q|] eqn:Hq; destruct (m !! event) as [v|] eqn:Hv; cbn.
    - iApply wp_ret. iDestruct (pm_acc VErrs errc_rep with "H Hm") as "[Hq Hm]"; [done|done|].
      by iApply ("HQ" with "Hq").
    - destruct Hkeys as [Hk _]. destruct Hk; done.
    - destruct Hkeys as [_ Hk]. destruct Hk; done.
    - wbind. iApply wp_alloc. iIntros (q) "Hq". wbind. iApply (wp_store with "H"). iIntros "H".
      iApply wp_ret. iApply ("HQ" with "Hq"). iIntros (v') "Hq". iApply (pm_put with "H Hm Hq").
  Qed.

  Lemma wp_get_job p a job Q :
    ia_rep p a -∗
    (∀ q, job_rep q (mget (ia_jobs a) job job0) -∗
          (∀ j', job_rep q j' -∗ ia_rep p (with_job a job (λ _, j'))) -∗ Q q) -∗
    wp hr (h_get_job p job) Q.
  Proof.
    iIntros "H HQ". iDestruct "H" as (jobs maps) "(Hp & Hj & Hm)". unfold h_get_job.
    wbind. iApply (wp_load_ia with "Hp"). iIntros "Hp". cbn. iDestruct "Hj" as (pm) "[H Hj]".
    wbind. iApply (wp_load_jobs with "H"). iIntros "H".
    iDestruct (pm_keys with "Hj") as %Hkeys. specialize (Hkeys job). unfold mget.
    destruct (pm !! job) as [q|] eqn:Hq; destruct (ia_jobs a !! job) as [v|] eqn:Hv; cbn.
    - iApply wp_ret. iDestruct (pm_acc VJobs job_rep with "H Hj") as "[Hq Hj]"; [done|done|].
      iApply ("HQ" with "Hq"). iIntros (j') "Hq". iExists jobs, maps. cbn. iFrame. by iApply "Hj".
    - destruct Hkeys as [Hk _]. destruct Hk; done.
    - destruct Hkeys as [_ Hk]. destruct Hk; done.
    - wbind. iApply wp_init_maps. iIntros (hm) "Hn". wbind. iApply wp_alloc. iIntros (q) "Hq".
      wbind. iApply (wp_store with "H"). iIntros "H".
      iApply wp_ret. iApply ("HQ" with "[Hq Hn]").
      { iExists hm. iFrame. }
      iIntros (j') "Hq". iExists jobs, maps. cbn. iFrame. iApply (pm_put with "H Hj Hq").
  Qed.

  Lemma wp_inc_event hm am event (Q : unit → hP) :
    maps_rep hm am -∗ (maps_rep hm (am_inc_event am event) -∗ Q tt) -∗ wp hr (h_inc_event hm event) Q.
  Proof.
    iIntros "(Dt & Dg & De & Dr) HQ". unfold h_inc_event.
    wbind. iApply (wp_load_events with "De"). iIntros "De". iApply (wp_store with "De"). iIntros "De".
    iApply "HQ". iFrame.
  Qed.
  Lemma wp_set_gauge hm am event v (Q : unit → hP) :
    maps_rep hm am -∗ (maps_rep hm (am_set_gauge am event v) -∗ Q tt) -∗ wp hr (h_set_gauge hm event v) Q.
  Proof.
    iIntros "(Dt & Dg & De & Dr) HQ". unfold h_set_gauge.
    wbind. iApply (wp_load_gauges with "Dg"). iIntros "Dg". iApply (wp_store with "Dg"). iIntros "Dg".
    iApply "HQ". iFrame.
  Qed.
  Lemma wp_add_timing hm am event nanos (Q : unit → hP) :
    maps_rep hm am -∗ (maps_rep hm (am_add_timing am event nanos) -∗ Q tt) -∗
    wp hr (t ←h h_get_timers hm event; h_timer_ingest t nanos) Q.
  Proof.
    iIntros "(Dt & Dg & De & Dr) HQ".
    wbind. iApply (wp_get_timers with "Dt"). iIntros (q) "Hq Dt".
    unfold h_timer_ingest. wbind. iApply (wp_load_timer with "Hq"). iIntros "Hq".
    iApply (wp_store with "Hq"). iIntros "Hq". iApply "HQ". iFrame. by iApply "Dt".
  Qed.
  Lemma wp_add_err hm am event e (Q : unit → hP) :
    maps_rep hm am -∗ (maps_rep hm (am_add_err am event e) -∗ Q tt) -∗
    wp hr (t ←h h_get_errs hm event; h_increment_and_add_error t e) Q.
  Proof.
    iIntros "(Dt & Dg & De & Dr) HQ".
    wbind. iApply (wp_get_errs with "Dr"). iIntros (q) "Hq Dr".
    unfold h_increment_and_add_error. wbind. iApply (wp_load_errc with "Hq"). iIntros "Hq".
    iApply (wp_store with "Hq"). iIntros "Hq". iApply "HQ". iFrame. by iApply "Dr".
  Qed.
End steps.

Lemma hbind_assoc {A B C} (c : M A) (k : A → M B) (k' : B → M C) o s :
  (b ←h (a ←h c; k a); k' b) o s = (a ←h c; b ←h k a; k' b) o s.
Proof. unfold hbind. by destruct (c o s). Qed.

Lemma wp_ext {A} hr (c c' : M A) Q : (∀ o s, c o s = c' o s) → wp hr c Q ⊢ wp hr c' Q.
Proof.
  intros H. apply hprop_entails_at. intros h HW o s hf Ho Hd Hr Hh. rewrite -H. by apply HW.
Qed.

(** a bind in two stages *)
Lemma wp_bind2 {A B C} hr (c : M A) (k : A → M B) (k' : B → M C) Q :
  wp hr (a ←h c; k a) (λ b, wp hr (k' b) Q) ⊢ wp hr (a ←h c; b ←h k a; k' b) Q.
Proof.
  etrans; [apply wp_bind|]. apply wp_ext. intros o s. apply hbind_assoc.
Qed.

Lemma with_job_const a job (f : jobagg → jobagg) :
  with_job a job (λ _, f (mget (ia_jobs a) job job0)) = with_job a job f.
Proof. done. Qed.

Lemma wp_apply hr p a c (Q : unit → hP) :
  ia_rep p a -∗ (ia_rep p (ia_apply a c) -∗ Q tt) -∗ wp hr (h_apply p c) Q.
Proof.
  iIntros "Ha HQ". destruct c as [job event|job event e|job event nanos|job event v|job st nanos]; cbn.
  - iDestruct "Ha" as (jobs maps) "(Hp & Hj & Hm)".
    wbind. iApply (wp_load_ia with "Hp"). iIntros "Hp". cbn.
    wbind. iApply (wp_inc_event with "Hm"). iIntros "Hm".
    wbind. iApply (wp_get_job _ _ (ia_on_maps (λ m, am_inc_event m event) a) with "[Hp Hj Hm]").
    { iExists jobs, maps. iFrame. }
    iIntros (q) "Hq Ha". iDestruct "Hq" as (jm) "[Hq Hm]".
    wbind. iApply (wp_load_job with "Hq"). iIntros "Hq". cbn.
    wbind. iApply (wp_inc_event with "Hm"). iIntros "Hm".
    iApply (wp_bump with "[Ha Hq Hm]").
    { iApply ("Ha" $! (job_on_maps (λ m, am_inc_event m event) (mget (ia_jobs a) job job0))). iExists jm. iFrame. }
    done.
  - iDestruct "Ha" as (jobs maps) "(Hp & Hj & Hm)".
    wbind. iApply (wp_load_ia with "Hp"). iIntros "Hp". cbn.
    iApply wp_bind2. iApply (wp_add_err with "Hm"). iIntros "Hm".
    wbind. iApply (wp_get_job _ _ (ia_on_maps (λ m, am_add_err m event e) a) with "[Hp Hj Hm]").
    { iExists jobs, maps. iFrame. }
    iIntros (q) "Hq Ha". iDestruct "Hq" as (jm) "[Hq Hm]".
    wbind. iApply (wp_load_job with "Hq"). iIntros "Hq". cbn.
    iApply wp_bind2. iApply (wp_add_err with "Hm"). iIntros "Hm".
    iApply (wp_bump with "[Ha Hq Hm]").
    { iApply ("Ha" $! (job_on_maps (λ m, am_add_err m event e) (mget (ia_jobs a) job job0))). iExists jm. iFrame. }
    done.
  - iDestruct "Ha" as (jobs maps) "(Hp & Hj & Hm)".
    wbind. iApply (wp_load_ia with "Hp"). iIntros "Hp". cbn.
    iApply wp_bind2. iApply (wp_add_timing with "Hm"). iIntros "Hm".
    wbind. iApply (wp_get_job _ _ (ia_on_maps (λ m, am_add_timing m event nanos) a) with "[Hp Hj Hm]").
    { iExists jobs, maps. iFrame. }
    iIntros (q) "Hq Ha". iDestruct "Hq" as (jm) "[Hq Hm]".
    wbind. iApply (wp_load_job with "Hq"). iIntros "Hq". cbn.
    iApply wp_bind2. iApply (wp_add_timing with "Hm"). iIntros "Hm".
    iApply (wp_bump with "[Ha Hq Hm]").
    { iApply ("Ha" $! (job_on_maps (λ m, am_add_timing m event nanos) (mget (ia_jobs a) job job0))). iExists jm. iFrame. }
    done.
  - iDestruct "Ha" as (jobs maps) "(Hp & Hj & Hm)".
    wbind. iApply (wp_load_ia with "Hp"). iIntros "Hp". cbn.
    wbind. iApply (wp_set_gauge with "Hm"). iIntros "Hm".
    wbind. iApply (wp_get_job _ _ (ia_on_maps (λ m, am_set_gauge m event v) a) with "[Hp Hj Hm]").
    { iExists jobs, maps. iFrame. }
    iIntros (q) "Hq Ha". iDestruct "Hq" as (jm) "[Hq Hm]".
    wbind. iApply (wp_load_job with "Hq"). iIntros "Hq". cbn.
    wbind. iApply (wp_set_gauge with "Hm"). iIntros "Hm".
    iApply (wp_bump with "[Ha Hq Hm]").
    { iApply ("Ha" $! (job_on_maps (λ m, am_set_gauge m event v) (mget (ia_jobs a) job job0))). iExists jm. iFrame. }
    done.
  - wbind. iApply (wp_get_job with "Ha"). iIntros (q) "Hq Ha". iDestruct "Hq" as (jm) "[Hq Hm]".
    wbind. unfold h_job_ingest. wbind. iApply (wp_load_job with "Hq"). iIntros "Hq". cbn.
    iApply (wp_store with "Hq"). iIntros "Hq".
    iApply (wp_bump with "[Ha Hq Hm]").
    { iApply ("Ha" $! (job_ingest (mget (ia_jobs a) job job0) st nanos)). iExists jm.
      iSplitL "Hq".
      - unfold mkjob. generalize (mget (ia_jobs a) job job0). intros j. unfold job_ingest.
        cbn. repeat case_match; done.
      - generalize (mget (ia_jobs a) job job0). intros j. unfold job_ingest.
        repeat case_match; done. }
    done.
Qed.
