(** * Totals over the answered intervals *)
From Verif Require Export SConserve.
From Verif Require Import MAgg SAgg PAgg PContent PContent2 PAgg2.

Lemma gap d (L : list Z) : 0 < d → (∀ s, s ∈ L → (d | s)) → StronglySorted Z.lt L →
  ∀ i j s e, L !! i = Some s → L !! j = Some e → (i ≤ j)%nat → s + d * Z.of_nat (j - i) ≤ e.
Proof.
  intros Hd. induction L as [|x L IH]; intros Hm Hs i j s e Hi Hj Hij; [done|].
  apply StronglySorted_inv in Hs as [Hs Hx].
  destruct i as [|i], j as [|j]; cbn in Hi, Hj; try lia.
  - simplify_eq. lia.
  - injection Hi as ->. destruct L as [|y L]; [done|]. rewrite Forall_forall in Hx.
    specialize (IH (λ s' Hs', Hm s' (elem_of_list_further _ _ _ Hs')) Hs 0%nat j y e eq_refl Hj ltac:(lia)).
    assert (s < y) by (apply Hx; left).
    assert (s + d ≤ y). { destruct (Hm s) as [a ->]; [left|]. destruct (Hm y) as [b ->]; [right; left|].
      assert (a < b) by (apply (Z.mul_lt_mono_pos_r d); done). nia. }
    replace (S j - 0)%nat with (S (j - 0)) by lia. lia.
  - replace (S j - S i)%nat with (j - i)%nat by lia. eapply IH; try done; [|lia]. intros s' Hs'. apply Hm. by right.
Qed.
Lemma slot_divides d t : (d | slot d t).
Proof. exists (t `div` d). unfold slot. lia. Qed.
Lemma slot_bounds d t : 0 < d → slot d t ≤ t < slot d t + d.
Proof. intros Hd. unfold slot. pose proof (Z.mod_pos_bound t d Hd). pose proof (Z.div_mod t d). lia. Qed.
Lemma slot_unique d s t : 0 < d → (d | s) → s ≤ t < s + d → s = slot d t.
Proof. intros Hd [a ->] H. pose proof (slot_bounds d t Hd). unfold slot in *.
  assert (a < t `div` d + 1) by (apply (Z.mul_lt_mono_pos_r d); lia).
  assert (t `div` d < a + 1) by (apply (Z.mul_lt_mono_pos_r d); lia). assert (a = t `div` d) as -> by lia. lia. Qed.

Section cons.
  Context (d retain : Z) (h : list (Z * aop)) (t : Z) (out : list ia).
  Context (Hd : 0 < d) (Hr : d ≤ retain) (Hc : clock_monotone (h ++ [(t, OpRead)])).
  Context (Hg : get_metrics d retain h t = Ok out).

  Lemma thm_recent_kept u o : (u, o) ∈ h → slot d t - slot d u < d * (retain `div` d) → slot d u ∈ map ia_start out.
  Proof using All.
    intros Hu Hw. destruct (thm_window d retain h t out Hd Hr Hc Hg) as (E & _ & _ & _). rewrite E. clear E.
    set (L := squash (map (slot d) (map fst h ++ [t]))). set (n := Z.to_nat (retain `div` d)).
    assert (Hin : slot d u ∈ L).
    { apply elem_of_squash. apply elem_of_list_fmap. exists u. split; [done|]. apply elem_of_app. left. apply elem_of_list_fmap. by exists (u, o). }
    assert (Hm : ∀ s, s ∈ L → (d | s)).
    { intros s Hs. apply elem_of_squash, elem_of_list_fmap in Hs as (x & -> & _). apply slot_divides. }
    assert (Hs : StronglySorted Z.lt L).
    { apply squash_sorted. assert (Hc' : StronglySorted Z.le (map fst h ++ [t])) by (unfold clock_monotone in Hc; by rewrite map_app in Hc).
      clear -Hd Hc'. induction Hc' as [|x l _ IH Hx]; [constructor|]. cbn. constructor; [done|].
      apply Forall_map. eapply Forall_impl; [exact Hx|]. intros y Hy. unfold slot. pose proof (Z.div_le_mono x y d Hd Hy). cbn. nia. }
    assert (Hl : last L = Some (slot d t)).
    { unfold L. rewrite squash_last, map_app. cbn. by rewrite last_snoc. }
    apply elem_of_list_lookup in Hin as [i Hi]. rewrite last_lookup in Hl.
    pose proof (lookup_lt_Some _ _ _ Hi) as Li.
    pose proof (gap d L Hd Hm Hs i (pred (length L)) _ _ Hi Hl ltac:(lia)) as G.
    apply elem_of_list_lookup. exists (i - (length L - n))%nat. unfold lastn. rewrite lookup_drop.
    assert (0 ≤ retain `div` d) by (apply Z.div_pos; lia).
    assert ((length L - n) ≤ i)%nat by (subst n; nia).
    replace (length L - n + (i - (length L - n)))%nat with i by lia. done.
  Qed.

  (** every command is in the interval of its time *)
  Lemma cmds_split (starts : list Z) : NoDup starts → (∀ s, s ∈ starts → (d | s)) → ∀ g : list (Z * aop),
    (∀ u o, (u, o) ∈ g → slot d u ∈ starts) →
    concat (map (λ s, cmds_in d s g) starts) ≡ₚ omap (λ x : Z * aop, match x.2 with OpCmd c => Some c | _ => None end) g.
  Proof using All.
    intros Hn Hm g. induction g as [|[u o] g IH]; intros Hin.
    - clear. induction starts as [|s l IH]; [done|]. exact IH.
    - assert (Hg' : ∀ u o, (u, o) ∈ g → slot d u ∈ starts) by (intros ? ? Hx; eapply Hin; right; exact Hx).
      specialize (IH Hg'). specialize (Hin u o ltac:(left)). destruct o as [c| |].
      2,3: rewrite <- IH; done.
      cbn [omap list_omap snd]. change (list_omap _ _ _ g) with (omap (λ x : Z * aop, match x.2 with OpCmd c => Some c | _ => None end) g).
      rewrite <- IH. clear IH Hg'.
      apply elem_of_list_split in Hin as (l1 & l2 & ->). rewrite !map_app, !concat_app. cbn [map concat].
      apply NoDup_app in Hn as (_ & Hn1 & Hn2). apply NoDup_cons in Hn2 as [Hn2 _].
      assert (Ex : ∀ l, (∀ s, s ∈ l → (d | s) ∧ s ≠ slot d u) → map (λ s, cmds_in d s ((u, OpCmd c) :: g)) l = map (λ s, cmds_in d s g) l).
      { intros l Hl. apply map_ext_in. intros s Hs%elem_of_list_In. destruct (Hl s Hs) as [Hs1 Hs2].
        unfold cmds_in. cbn. rewrite bool_decide_eq_false_2; [done|]. intros Hb. apply Hs2. by apply slot_unique. }
      rewrite (Ex l1), (Ex l2).
      + assert (cmds_in d (slot d u) ((u, OpCmd c) :: g) = c :: cmds_in d (slot d u) g) as ->.
        { unfold cmds_in. cbn. rewrite bool_decide_eq_true_2 by (by apply slot_bounds). done. }
        cbn [app]. symmetry. apply Permutation_middle.
      + intros s Hs. split; [apply Hm; set_solver|]. intros ->. done.
      + intros s Hs. split; [apply Hm; set_solver|]. intros ->. eapply Hn1; [exact Hs|left].
  Qed.

  Lemma thm_nothing_lost : recent d retain h t → concat (map (λ i, cmds_in d (ia_start i) h) out) ≡ₚ hist_cmds h.
  Proof using All.
    intros Hw. rewrite <- (map_map ia_start (λ s, cmds_in d s h) out). apply cmds_split.
    - by eapply thm_no_duplicate_interval.
    - intros s Hs. apply elem_of_list_fmap in Hs as (i & -> & Hi). by apply (thm_window d retain h t out Hd Hr Hc Hg).
    - intros u o Hu. eapply thm_recent_kept; [exact Hu|]. by eapply Hw.
  Qed.
End cons.

Lemma w64_zsum (l : list Z) : w64 (zsum (map w64 l)) = w64 (zsum l).
Proof.
  induction l as [|x l IH]; [done|]. cbn [map zsum foldr]. change (foldr Z.add 0 (map w64 l)) with (zsum (map w64 l)).
  change (foldr Z.add 0 l) with (zsum l). rewrite Z.add_comm, w64_add_r, Z.add_comm, <- (w64_add_r x), IH, w64_add_r. done.
Qed.
Lemma counter_default n : default 0 (counter_entry n) = i64 n.
Proof. unfold counter_entry. case_decide; [subst; done|done]. Qed.
Lemma zsum_nat {A} (f : A → nat) (l : list A) : zsum (map (λ x, Z.of_nat (f x)) l) = Z.of_nat (sum_list_with f l).
Proof. induction l as [|x l IH]; [done|]. cbn [map zsum foldr sum_list_with]. change (foldr Z.add 0 ?y) with (zsum y). rewrite IH. lia. Qed.
Lemma sum_concat {A B} (g : list A → list B) (Hnil : g [] = []) (Happ : ∀ a b, g (a ++ b) = g a ++ g b) {C} (f : C → list A) (l : list C) :
  sum_list_with (λ x, length (g (f x))) l = length (g (concat (map f l))).
Proof. induction l as [|x l IH]; cbn; [by rewrite Hnil|]. by rewrite Happ, app_length, IH. Qed.

(** ** the theorem *)
Lemma thm_event_total d retain h t out e : 0 < d → d ≤ retain → clock_monotone (h ++ [(t, OpRead)]) →
  get_metrics d retain h t = Ok out → recent d retain h t →
  event_total e out = i64 (length (events_of e (hist_cmds h))).
Proof.
  unfold event_total.
  intros Hd Hr Hc Hg Hw.
  rewrite (map_ext_in _ (λ i, i64 (length (events_of e (cmds_in d (ia_start i) h))))).
  2:{ intros i Hi%elem_of_list_In. rewrite (thm_events d retain h t out Hd Hr Hc Hg i e Hi). apply counter_default. }
  unfold i64 at 1. rewrite <- (map_map (λ i, Z.of_nat (length (events_of e (cmds_in d (ia_start i) h)))) w64), w64_zsum, zsum_nat.
  rewrite (sum_concat (events_of e)) by (done || (intros; apply omap_app)).
  unfold i64. do 2 f_equal. apply Permutation_length. unfold events_of.
  pose proof (thm_nothing_lost d retain h t out Hd Hr Hc Hg Hw) as P. by rewrite P.
Qed.
