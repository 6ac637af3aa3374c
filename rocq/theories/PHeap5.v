(** * Snapshots of the aggregator *)
From Verif Require Import PAgg PAgg2.
From Verif Require Export PHeap4.
#[local] Open Scope Z_scope.

(** the aggregator owns [hA]; everything else is [hf] *)
Definition inv (s : st) (a : haggr) (v : aggr) (hA hf : heap) : Prop :=
  same_conf a v ∧ 0 < a_max v ∧ Z.of_nat (length (a_ints v)) ≤ a_max v ∧
  s_heap s = hA ∪ hf ∧ hA ##ₘ hf ∧ hprop_at (agg_own hf a v) hA.

Lemma inv_step o s a v hA hf t op :
  fair o → inv s a v hA hf →
  ∃ s' a' sl v' r hA' hf' w,
    h_step a t op o s = Ok (s', (a', sl)) ∧ agg_step v t op = Ok (v', r) ∧
    inv s' a' v' hA' hf' ∧ hf ⊆ hf' ∧ out_shows hf' r sl ∧
    s_log s' = w ++ s_log s ∧ (∀ x, x ∈ w → hf !! x = None).
Proof.
  intros Ho (Hc & Hm & Hle & Hh & Hd & HA).
  destruct (agg_step_safe v t op Hm Hle) as (v' & r & Hs & Hmx & Hl').
  destruct (step_meta a v t op v' r o s hA hf) as (s' & a' & sl & hA' & hf' & w & H1 & H2 & H3 & H4 & H5 & H6 & H7 & H8 & H9); try done.
  exists s', a', sl, v', r, hA', hf', w. unfold inv. rewrite Hmx. split_and!; done.
Qed.

Lemma inv_run o s a v hA hf hist :
  fair o → inv s a v hA hf →
  ∃ s' a' v' hA' hf' w,
    h_run a hist o s = Ok (s', a') ∧ agg_run v hist = Ok v' ∧
    inv s' a' v' hA' hf' ∧ hf ⊆ hf' ∧
    s_log s' = w ++ s_log s ∧ (∀ x, x ∈ w → hf !! x = None).
Proof.
  intros Ho. revert s a v hA hf. induction hist as [|[t op] hist IH]; intros s a v hA hf Hi.
  - exists s, a, v, hA, hf, []. split_and!; try done. by intros x Hx%elem_of_nil.
  - destruct (inv_step o s a v hA hf t op Ho Hi) as (s1 & a1 & sl & v1 & r & hA1 & hf1 & w1 & H1 & H2 & H3 & H4 & _ & H6 & H7).
    destruct (IH s1 a1 v1 hA1 hf1 H3) as (s' & a' & v' & hA' & hf' & w & E1 & E2 & E3 & E4 & E5 & E6).
    exists s', a', v', hA', hf', (w ++ w1). split_and!; try done.
    + cbn. unfold hbind. rewrite H1. done.
    + cbn. rewrite H2. done.
    + by etrans.
    + by rewrite E5 H6 app_assoc.
    + intros x [Hx|Hx]%elem_of_app; [|by apply H7]. specialize (E6 x Hx).
      apply eq_None_not_Some. intros [c Hc]. pose proof (lookup_weaken _ _ _ _ Hc H4) as Hc'. rewrite E6 in Hc'. done.
Qed.

Lemma inv_shows s a v hA hf : inv s a v hA hf → shows_slice (s_heap s) (ha_ints a) (a_ints v).
Proof.
  intros (_ & _ & _ & -> & Hd & HA).
  assert (S1 : hA ⊆ hA ∪ hf) by apply map_union_subseteq_l.
  assert (S2 : hf ⊆ hA ∪ hf) by (by apply map_union_subseteq_r).
  destruct HA as [HA|(ops & oints & p & x & HA)].
  - apply hprop_sep_at in HA as (h1 & h2 & -> & Hd' & Hv & Harr). apply hprop_pure_at in Hv. rewrite Hv.
    destruct (arr_at _ _ _ _ Harr) as (arr & Ha & Hn & Ht). exists arr. split.
    + eapply lookup_weaken; [exact Ha|]. etrans; [|exact S1]. by apply map_union_subseteq_r.
    + rewrite Ht. constructor.
  - apply hprop_sep_at in HA as (h1 & h2 & -> & Hd' & Hv & HA). apply hprop_pure_at in Hv as [Hv Hops].
    apply hprop_sep_at in HA as (h3 & h4 & -> & Hd2 & Harr & Hp). rewrite Hv.
    destruct (arr_at _ _ _ _ Harr) as (arr & Ha & Hn & Ht). exists arr.
    assert (T1 : h3 ⊆ (h1 ∪ (h3 ∪ h4)) ∪ hf).
    { etrans; [|exact S1]. etrans; [|by apply map_union_subseteq_r]. apply map_union_subseteq_l. }
    assert (T2 : h4 ⊆ (h1 ∪ (h3 ∪ h4)) ∪ hf).
    { etrans; [|exact S1]. etrans; [|by apply map_union_subseteq_r]. by apply map_union_subseteq_r. }
    split; [by eapply lookup_weaken|]. rewrite Ht fmap_app. apply Forall2_app.
    + apply Forall2_fmap_l. eapply Forall2_impl; [exact Hops|]. intros q y Hq. exists q. split; [done|].
      exact (shows_mono _ _ _ _ S2 Hq).
    + repeat constructor. exists p. split; [done|]. eapply shows_mono; [exact T2|]. by apply ia_shows.
Qed.

(** ** slices in an extended heap *)
Lemma slice_mono h h' sl l : h ⊆ h' → shows_slice h sl l → shows_slice h' sl l.
Proof.
  intros Hs (arr & Ha & Hl). exists arr. split; [by eapply lookup_weaken|].
  eapply Forall2_impl; [exact Hl|]. intros q y (p & -> & Hp). exists p. split; [done|]. by eapply shows_mono.
Qed.

Lemma slice_cells h h' sl l : h ⊆ h' → shows_slice h sl l →
  cells_slice h' sl = cells_slice h sl ∧ ∀ x, x ∈ cells_slice h sl → is_Some (h !! x).
Proof.
  intros Hs (arr & Ha & Hl). unfold cells_slice. rewrite (lookup_weaken _ _ _ _ Ha Hs) Ha.
  assert (H : ∀ l', Forall2 (λ (o : option addr) (a : ia), ∃ p, o = Some p ∧ shows h p a) l' l →
    concat ((λ o, match o with Some p => cells h' p | None => [] end) <$> l') =
    concat ((λ o, match o with Some p => cells h p | None => [] end) <$> l') ∧
    ∀ x, x ∈ concat ((λ o, match o with Some p => cells h p | None => [] end) <$> l') → is_Some (h !! x)).
  { clear - Hs. induction l as [|y l IH]; intros l' H'; inversion H' as [|o y' l0 l1 Hy Hl E1 E2]; subst.
    - split; [done|]. by intros x Hx%elem_of_nil.
    - destruct Hy as (p & -> & Hp). destruct (IH l0 Hl) as [IH1 IH2]. rewrite !fmap_cons. cbn [concat].
      assert (Hd : ∀ x, x ∈ cells h p → is_Some (h !! x)) by (intros x; by eapply shows_dom).
      split.
      + rewrite IH1. f_equal. apply cells_local. intros x Hx. destruct (Hd x Hx) as [c Hc].
        rewrite (lookup_weaken _ _ _ _ Hc Hs). by symmetry.
      + intros x [Hx|Hx]%elem_of_app; auto. }
  destruct (H _ Hl) as [H1 H2]. split; [by f_equal|].
  intros x [->|Hx]%elem_of_cons; eauto.
Qed.

(** ** construction *)
Lemma new_inv o s dur retain s' a :
  fair o → h_new_aggregator dur retain o s = Ok (s', a) →
  ∃ v, new_aggregator dur retain = Ok v ∧ same_conf a v ∧ 0 ≤ a_max v ∧ sl_len (ha_ints a) = 0%nat ∧ a_ints v = [] ∧
    (0 < a_max v → ∃ hA, inv s' a v hA (s_heap s)).
Proof.
  intros Ho. unfold h_new_aggregator, new_aggregator. destruct (dur =? 0); [done|].
  destruct (Z.ltb_spec (Z.quot retain dur) 0) as [|Hq]; [done|].
  assert (HW : ⊢ wp (s_heap s) (h_make (Z.to_nat (Z.quot retain dur))) (λ sl, arr_own sl (Z.to_nat (Z.quot retain dur)) [])).
  { iApply wp_make. iIntros (sl) "H". done. }
  apply hprop_entails_at with (h := ∅) in HW; [|done].
  destruct (wp_run _ _ _ o s ∅ (s_heap s) HW Ho) as (h' & s1 & sl & w & Hc & Hd & Hh & Hl & Hw & _ & HQ).
  - apply map_disjoint_empty_l.
  - done.
  - by rewrite (left_id_L _ _).
  - unfold hbind. rewrite Hc. cbn. intros [= <- <-].
    exists (Aggr dur retain (Z.quot retain dur) []). cbn. split_and!; try done.
    + by destruct (arr_at _ _ _ _ HQ) as (arr & _ & Hn & _).
    + intros Hm. exists h'. split_and!; try done.
      left. apply hprop_sep_at. exists ∅, h'. split_and!; [by rewrite (left_id_L _ _)|apply map_disjoint_empty_l|done|done].
Qed.

(** capacity 0: the first operation panics (aggregator.go:141-147) *)
Lemma zero_crash o s a t op :
  fair o → ha_max a = 0 → sl_len (ha_ints a) = 0%nat →
  h_step a t op o s = Crash "index out of range [-1]".
Proof.
  intros Ho Hm Hn.
  assert (Hc : ∀ s, h_create a (truncate (ha_dur a) t) o s = Crash "index out of range [-1]").
  { clear s. intros s.
    assert (HW : ⊢ wp (s_heap s) (h_new_ia (truncate (ha_dur a) t)) (λ p, emp)).
    { iApply wp_new_ia. iIntros (p) "H". done. }
    apply hprop_entails_at with (h := ∅) in HW; [|done].
    destruct (wp_run _ _ _ o s ∅ (s_heap s) HW Ho) as (h' & s1 & sl & w & Hc & _); [apply map_disjoint_empty_l|done|by rewrite (left_id_L _ _)|].
    unfold h_create, hbind at 1. rewrite Hc. cbn. rewrite Hn Hm. cbn. done. }
  assert (Hg : ∀ s, h_get a t o s = Crash "index out of range [-1]").
  { intros s1. unfold h_get. rewrite Hn. cbn. apply Hc. }
  destruct op as [c| |]; cbn [h_step]; unfold hbind; [by rewrite Hg..|].
  unfold h_memory_safe, hbind. destruct (h_make (sl_len (ha_ints a)) o s) as [[s1 out]|] eqn:E; [|done].
  cbn. by rewrite Hg.
Qed.

(** ** the aggregator goroutine, pointers and values *)
Lemma thm_refines o s0 dur retain s a hist :
  fair o → h_new_aggregator dur retain o s0 = Ok (s, a) →
  ∃ v, new_aggregator dur retain = Ok v ∧
  match h_run a hist o s, agg_run v hist with
  | Ok (s', a'), Ok v' => shows_slice (s_heap s') (ha_ints a') (a_ints v') ∧ s_heap s0 ⊆ s_heap s'
  | Crash e, Crash e' => e = e'
  | _, _ => False
  end.
Proof.
  intros Ho Hn. destruct (new_inv _ _ _ _ _ _ Ho Hn) as (v & Hv & Hc & Hm & Hz & Hi0 & Hinv).
  exists v. split; [done|]. destruct (decide (0 < a_max v)) as [Hp|Hp].
  - destruct (Hinv Hp) as [hA Hi].
    destruct (inv_run o s a v hA (s_heap s0) hist Ho Hi) as (s' & a' & v' & hA' & hf' & w & H1 & H2 & H3 & H4 & _).
    rewrite H1 H2. split; [by eapply inv_shows|]. destruct H3 as (_ & _ & _ & -> & Hd & _).
    etrans; [exact H4|]. by apply map_union_subseteq_r.
  - assert (Hm0 : a_max v = 0) by lia. destruct hist as [|[t op] hist]; cbn.
    + unfold new_aggregator in Hv. unfold h_new_aggregator in Hn.
      destruct (dur =? 0); [done|]. destruct (_ <? 0) eqn:Eq; [done|].
      rewrite Hi0. revert Hn. unfold h_make, hbind, halloc, hret. cbn. intros [= <- <-]. cbn. split.
      * eexists. rewrite lookup_insert. split; [done|]. cbn. constructor.
      * apply insert_subseteq. apply not_elem_of_dom. apply is_fresh.
    + unfold hbind. rewrite (zero_crash o s a t op Ho); [|by destruct Hc as (_ & _ & ->)|done]. cbn.
      unfold agg_step, memory_safe_intervals, get_interval, create_interval. rewrite Hi0. cbn. rewrite Hm0. cbn.
      destruct op; done.
Qed.

Lemma thm_snapshot o s0 dur retain s a hist1 s1 a1 t s2 a2 sl hist2 s3 a3 :
  fair o →
  h_new_aggregator dur retain o s0 = Ok (s, a) →
  h_run a hist1 o s = Ok (s1, a1) →
  h_step a1 t OpRead o s1 = Ok (s2, (a2, sl)) →
  h_run a2 hist2 o s2 = Ok (s3, a3) →
  ∃ out l v v1 v2 w,
    sl = Some out ∧
    new_aggregator dur retain = Ok v ∧ agg_run v hist1 = Ok v1 ∧ agg_step v1 t OpRead = Ok (v2, Some l) ∧
    shows_slice (s_heap s2) (ha_ints a2) l ∧ shows_slice (s_heap s2) out l ∧
    shows_slice (s_heap s3) out l ∧ cells_slice (s_heap s3) out = cells_slice (s_heap s2) out ∧
    s_log s3 = w ++ s_log s2 ∧
    ∀ x, x ∈ cells_slice (s_heap s2) out → s_heap s3 !! x = s_heap s2 !! x ∧ x ∉ w.
Proof.
  intros Ho Hn Hr1 Hst Hr2.
  destruct (new_inv _ _ _ _ _ _ Ho Hn) as (v & Hv & Hc & Hm & Hz & Hi0 & Hinv).
  destruct (decide (0 < a_max v)) as [Hp|Hp].
  2:{ exfalso. assert (Hm0 : ha_max a = 0) by (destruct Hc as (_ & _ & ->); lia).
      destruct hist1 as [|[t' op'] hist1]; cbn in Hr1.
      - injection Hr1 as -> ->. rewrite (zero_crash o s1 a1 t OpRead Ho Hm0 Hz) in Hst. done.
      - unfold hbind in Hr1. rewrite (zero_crash o s a t' op' Ho Hm0 Hz) in Hr1. done. }
  destruct (Hinv Hp) as [hA Hi].
  destruct (inv_run o s a v hA (s_heap s0) hist1 Ho Hi) as (s1' & a1' & v1 & hA1 & hf1 & w1 & E1 & E2 & E3 & E4 & E5 & E6).
  rewrite Hr1 in E1. injection E1 as <- <-.
  destruct (inv_step o s1 a1 v1 hA1 hf1 t OpRead Ho E3) as (s2' & a2' & sl' & v2 & r & hA2 & hf2 & w2 & F1 & F2 & F3 & F4 & F5 & F6 & F7).
  rewrite Hst in F1. injection F1 as <- <- <-.
  destruct (inv_run o s2 a2 v2 hA2 hf2 hist2 Ho F3) as (s3' & a3' & v3 & hA3 & hf3 & w3 & G1 & G2 & G3 & G4 & G5 & G6).
  rewrite Hr2 in G1. injection G1 as <- <-.
  pose proof (inv_shows _ _ _ _ _ F3) as Hown.
  assert (Hr : r = Some (a_ints v2)).
  { cbn in F2. unfold memory_safe_intervals in F2. destruct (get_interval v1 t); [|done]. cbn in F2. by injection F2 as <- <-. }
  subst r. destruct sl as [out|]; [|done]. cbn in F5.
  assert (T2 : hf2 ⊆ s_heap s2) by (destruct F3 as (_ & _ & _ & -> & Hd & _); by apply map_union_subseteq_r).
  assert (T3 : hf2 ⊆ s_heap s3).
  { etrans; [exact G4|]. destruct G3 as (_ & _ & _ & -> & Hd & _); by apply map_union_subseteq_r. }
  destruct (slice_cells _ _ _ _ T2 F5) as [C2 D2]. destruct (slice_cells _ _ _ _ T3 F5) as [C3 _].
  exists out, (a_ints v2), v, v1, v2, w3. split_and!; try done.
  - by eapply slice_mono.
  - by eapply slice_mono.
  - by rewrite C3 C2.
  - intros x Hx. rewrite C2 in Hx. destruct (D2 x Hx) as [c Hxc]. split.
    + by rewrite (lookup_weaken _ _ _ _ Hxc T2) (lookup_weaken _ _ _ _ Hxc T3).
    + intros Hw. specialize (G6 x Hw). rewrite Hxc in G6. done.
Qed.
