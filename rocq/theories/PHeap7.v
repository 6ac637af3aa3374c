(** * What a snapshot shares with the aggregator *)
From Verif Require Import PAgg PAgg2.
From Verif Require Export PHeap6.
#[local] Open Scope Z_scope.

Lemma cells_incl h h' p a x : h ⊆ h' → shows h p a → x ∈ cells h' p → is_Some (h !! x).
Proof.
  intros Hs Hp Hx.
  assert (E : cells h' p = cells h p).
  { apply cells_local. intros y Hy. destruct (shows_dom _ _ _ _ Hp Hy) as [c Hc].
    rewrite (lookup_weaken _ _ _ _ Hc Hs). by symmetry. }
  rewrite E in Hx. by eapply shows_dom.
Qed.

Lemma pointers_at s cap ps h h' : hprop_at (arr_own s cap ps) h → h ⊆ h' →
  pointers h' s = Some <$> ps ∧ is_Some (h !! sl_arr s).
Proof.
  intros H Hs. destruct (arr_at _ _ _ _ H) as (arr & Ha & Hn & Ht). unfold pointers.
  rewrite (lookup_weaken _ _ _ _ Ha Hs). split; [done|by eexists].
Qed.

Lemma elem_of_concat_fmap {A B} (f : A → list B) (l : list A) x : x ∈ concat (f <$> l) → ∃ y, y ∈ l ∧ x ∈ f y.
Proof.
  induction l as [|y l IH]; [by intros ?%elem_of_nil|]. rewrite fmap_cons. cbn.
  intros [Hx|Hx]%elem_of_app; [exists y; split; [left|done]|]. destruct (IH Hx) as (z & ? & ?). exists z. split; [by right|done].
Qed.
Lemma cells_slice_pointers h s x : x ∈ cells_slice h s →
  x = sl_arr s ∨ ∃ p, Some p ∈ pointers h s ∧ x ∈ cells h p.
Proof.
  unfold cells_slice, pointers. intros [->|Hx]%elem_of_cons; [by left|]. right.
  destruct (h !! sl_arr s) as [[]|]; try by apply elem_of_nil in Hx.
  apply elem_of_concat_fmap in Hx as (o & Ho & Hx). destruct o as [p|]; [|by apply elem_of_nil in Hx]. eauto.
Qed.

Lemma sub_l (a b c : heap) : a ⊆ b → a ⊆ b ∪ c.
Proof. intros H. etrans; [exact H|apply map_union_subseteq_l]. Qed.
Lemma sub_r (a b c : heap) : b ##ₘ c → a ⊆ c → a ⊆ b ∪ c.
Proof. intros Hd H. etrans; [exact H|by apply map_union_subseteq_r]. Qed.
Ltac dj := rewrite ?map_disjoint_union_l ?map_disjoint_union_r; split_and?; done.

Lemma read_shape o s a v hA hf t s' a' sl :
  fair o → inv s a v hA hf → h_step a t OpRead o s = Ok (s', (a', sl)) →
  ∃ out ps p q, sl = Some out ∧
    pointers (s_heap s') (ha_ints a') = Some <$> (ps ++ [p]) ∧
    pointers (s_heap s') out = Some <$> (ps ++ [q]) ∧
    ∀ x, x = sl_arr out ∨ x ∈ cells (s_heap s') q → x ∉ cells_slice (s_heap s') (ha_ints a').
Proof.
  intros Ho (Hc & Hm & Hle & Hh & Hd & HA) Hrun.
  destruct (agg_step_safe v t OpRead Hm Hle) as (v' & r & Hs & Hmx & Hl').
  pose proof (proj1 (hprop_entails_at _ _) (wp_step hf a v t OpRead v' r Hc Hm Hle Hs) hA HA) as HW.
  destruct (wp_run _ _ _ o s hA hf HW Ho Hd (reflexivity hf) Hh) as (h' & s1 & res & w & Hrun' & Hd' & Hh' & _ & _ & _ & HP).
  rewrite Hrun in Hrun'. injection Hrun' as <- <-.
  assert (Hr : ∃ l, r = Some l).
  { cbn in Hs. unfold memory_safe_intervals in Hs. destruct (get_interval v t); [|done]. cbn in Hs. injection Hs as <- <-. eauto. }
  destruct Hr as [l ->].
  destruct HP as (p & x & ops & oints & fz & HP).
  apply hprop_sep_at in HP as (g1 & g2 & -> & Hg1 & Hc' & HP). clear Hc'.
  apply hprop_sep_at in HP as (g3 & g4 & -> & Hg2 & Hv & HP). apply hprop_pure_at in Hv as [Hv Hops].
  apply hprop_sep_at in HP as (g5 & g6 & -> & Hg3 & Hcur & Hrest).
  apply hprop_sep_at in Hrest as (g7 & g8 & -> & Hg7 & Hfz & Hout).
  cbn [fst snd] in *. destruct sl as [out|]; [|done].
  destruct Hout as (cap & q & Hout).
  apply hprop_sep_at in Hout as (k1 & k2 & -> & Hk & _ & Hout).
  apply hprop_sep_at in Hout as (k3 & k4 & -> & Hk' & Hao & Hq).
  apply hprop_sep_at in Hcur as (c1 & c2 & -> & Hcc & Hca & Hcp).
  exists out, ops, p, q.
  set (H := s_heap s') in *.
  rewrite !map_disjoint_union_l !map_disjoint_union_r in Hg1 Hg2 Hg3 Hg7 Hk Hk' Hcc Hd'.
  destruct_and?.
  assert (Sk2 : k3 ∪ k4 ⊆ H) by (rewrite Hh'; apply sub_l; do 5 (apply sub_r; [dj|]); done).
  assert (Sc : c1 ∪ c2 ⊆ H) by (rewrite Hh'; apply sub_l; do 2 (apply sub_r; [dj|]); by apply sub_l).
  assert (S7 : g7 ⊆ H) by (rewrite Hh'; apply sub_l; do 3 (apply sub_r; [dj|]); by apply sub_l).
  assert (Sf : hf ⊆ H) by (rewrite Hh'; apply sub_r; [dj|done]).
  assert (S1 : c1 ⊆ H) by (etrans; [apply map_union_subseteq_l|exact Sc]).
  assert (S2 : c2 ⊆ H) by (etrans; [by apply map_union_subseteq_r|exact Sc]).
  assert (S3 : k3 ⊆ H) by (etrans; [apply map_union_subseteq_l|exact Sk2]).
  assert (S4 : k4 ⊆ H) by (etrans; [by apply map_union_subseteq_r|exact Sk2]).
  destruct (pointers_at _ _ _ _ _ Hca S1) as [P1 D1]. destruct (pointers_at _ _ _ _ _ Hao S3) as [P2 D2].
  split_and!; try done. intros y Hy Hin.
  assert (Hyk : is_Some ((k3 ∪ k4) !! y)).
  { rewrite lookup_union_is_Some. destruct Hy as [->|Hy]; [by left|right]. eapply cells_incl; [exact S4| |exact Hy]. by apply ia_shows. }
  assert (Hyo : is_Some (c1 !! y) ∨ is_Some (c2 !! y) ∨ is_Some (g7 !! y) ∨ is_Some (hf !! y)).
  { destruct (cells_slice_pointers _ _ _ Hin) as [->|(p' & Hp' & Hyp)]; [by left|]. right.
    rewrite P1 in Hp'. apply elem_of_list_fmap in Hp' as (p'' & [= <-] & Hp').
    apply elem_of_app in Hp' as [Hp'|Hp']; [|apply elem_of_list_singleton in Hp' as ->].
    - right. apply elem_of_list_lookup in Hp' as [i Hi].
      destruct (Forall2_lookup_l _ _ _ _ _ Hops Hi) as (z & Hz & [Hsh|Hsh]).
      + right. eapply cells_incl; [exact Sf|exact Hsh|exact Hyp].
      + left. eapply cells_incl; [exact S7|by eapply fz_at|exact Hyp].
    - left. eapply cells_incl; [exact S2|by apply ia_shows|exact Hyp]. }
  assert (Hdis : ∀ g : heap, (k3 ∪ k4) ##ₘ g → is_Some (g !! y) → False).
  { intros g Hdg [c Hg]. destruct Hyk as [c' Hk'']. exact (proj1 (map_disjoint_spec (k3 ∪ k4) g) Hdg _ _ _ Hk'' Hg). }
  destruct Hyo as [Hy'|[Hy'|[Hy'|Hy']]]; eapply Hdis; try exact Hy'; rewrite map_disjoint_union_l.
  - split; by symmetry.
  - split; by symmetry.
  - split; by symmetry.
  - done.
Qed.

(** two-part statement: the current interval is copied, the older ones are
    the aggregator's own *)
Lemma thm_shares o s0 dur retain s a hist s1 a1 t s2 a2 sl :
  fair o →
  h_new_aggregator dur retain o s0 = Ok (s, a) →
  h_run a hist o s = Ok (s1, a1) →
  h_step a1 t OpRead o s1 = Ok (s2, (a2, sl)) →
  ∃ out ps p q, sl = Some out ∧
    pointers (s_heap s2) (ha_ints a2) = Some <$> (ps ++ [p]) ∧
    pointers (s_heap s2) out = Some <$> (ps ++ [q]) ∧
    ∀ x, x = sl_arr out ∨ x ∈ cells (s_heap s2) q → x ∉ cells_slice (s_heap s2) (ha_ints a2).
Proof.
  intros Ho Hn Hr1 Hst.
  destruct (new_inv _ _ _ _ _ _ Ho Hn) as (v & Hv & Hc & Hm & Hz & Hi0 & Hinv).
  destruct (decide (0 < a_max v)) as [Hp|Hp].
  2:{ exfalso. assert (Hm0 : ha_max a = 0) by (destruct Hc as (_ & _ & ->); lia).
      destruct hist as [|[t' op'] hist]; cbn in Hr1.
      - injection Hr1 as -> ->. rewrite (zero_crash o s1 a1 t OpRead Ho Hm0 Hz) in Hst. done.
      - unfold hbind in Hr1. rewrite (zero_crash o s a t' op' Ho Hm0 Hz) in Hr1. done. }
  destruct (Hinv Hp) as [hA Hi].
  destruct (inv_run o s a v hA (s_heap s0) hist Ho Hi) as (s1' & a1' & v1 & hA1 & hf1 & w1 & E1 & E2 & E3 & _).
  rewrite Hr1 in E1. injection E1 as <- <-. by eapply read_shape.
Qed.

(** ** Clone and Merge, both directions *)
Lemma thm_clone_both o s p a :
  fair o → shows (s_heap s) p a →
  ∃ s' q w, h_clone_ia p o s = Ok (s', q) ∧
    shows (s_heap s') p a ∧ shows (s_heap s') q a ∧ unshared (s_heap s') q ∧
    apart (s_heap s') p q ∧
    s_log s' = w ++ s_log s ∧ (∀ x, x ∈ w → s_heap s !! x = None) ∧
    (∀ h, mutates (λ x, x ∈ cells (s_heap s') p) (s_heap s') h → shows h q a) ∧
    (∀ h, mutates (λ x, x ∈ cells (s_heap s') q) (s_heap s') h → shows h p a).
Proof.
  intros Ho Hp. destruct (thm_clone o s p a Ho Hp) as (s' & q & w & Hc & Hq & Hu & Hnew & Hsub & Hl & Hw).
  assert (Hp' : shows (s_heap s') p a) by (by eapply shows_mono).
  assert (Hap : apart (s_heap s') p q).
  { intros x Hx Hxq. destruct (cells_incl _ _ _ _ _ Hsub Hp Hx) as [c Hc']. specialize (Hnew x Hxq).
    discriminate (eq_trans (eq_sym Hnew) Hc'). }
  exists s', q, w. split_and!; try done.
  - intros h Hm. exact (thm_apart_mutation _ _ _ _ _ Hq Hap Hm).
  - intros h Hm. refine (thm_apart_mutation _ _ _ _ _ Hp' _ Hm). intros x H1 H2. exact (Hap x H2 H1).
Qed.

Lemma thm_merge_both o s pa pb a b :
  fair o → shows (s_heap s) pa a → unshared (s_heap s) pa →
  shows (s_heap s) pb b → apart (s_heap s) pa pb →
  ∃ s' w, h_merge_ia pa pb o s = Ok (s', tt) ∧
    shows (s_heap s') pa (ia_merge a b) ∧ unshared (s_heap s') pa ∧
    shows (s_heap s') pb b ∧ cells (s_heap s') pb = cells (s_heap s) pb ∧
    s_log s' = w ++ s_log s ∧
    (∀ x, x ∈ cells (s_heap s) pb → s_heap s' !! x = s_heap s !! x ∧ x ∉ w) ∧
    apart (s_heap s') pa pb ∧
    (∀ h, mutates (λ x, x ∈ cells (s_heap s') pa) (s_heap s') h → shows h pb b) ∧
    (∀ h, mutates (λ x, x ∈ cells (s_heap s') pb) (s_heap s') h → shows h pa (ia_merge a b)).
Proof.
  intros Ho Ha Hu Hb Hap.
  destruct (thm_merge o s pa pb a b Ho Ha Hu Hb Hap) as (s' & w & He & Ha' & Hu' & Hb' & Hcb & Hap' & Hx & Hl).
  exists s', w. split_and!; try done.
  - intros x Hxb. apply Hx; [by eapply shows_dom|]. intros Hxa. exact (Hap x Hxa Hxb).
  - intros h Hm. exact (thm_apart_mutation _ _ _ _ _ Hb' Hap' Hm).
  - intros h Hm. refine (thm_apart_mutation _ _ _ _ _ Ha' _ Hm). intros x H1 H2. exact (Hap' x H2 H1).
Qed.
