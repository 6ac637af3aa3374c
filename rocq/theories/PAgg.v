(** * Proofs about the aggregator: the window of retained intervals *)
From Verif Require Import MAgg SAgg.

Lemma agg_run_app a h1 h2 : agg_run a (h1 ++ h2) = (x ←r agg_run a h1; agg_run x h2).
Proof.
  revert a; induction h1 as [|[t o] h1 IH]; intros a; simpl; [done|].
  destruct (agg_step a t o) as [[a' r]|w]; simpl; [apply IH|done].
Qed.

Lemma shift_down_len {A} (ks : list nat) (l : list A) :
  length (fold_left (λ acc i, match acc !! i with Some x => <[(i - 1)%nat := x]> acc | None => acc end) ks l) = length l.
Proof.
  revert l; induction ks as [|k ks IH]; intros l; simpl; [done|].
  rewrite IH. destruct (l !! k); [by rewrite insert_length|done].
Qed.

(** after processing indices 1..k: the first k entries have been shifted *)
Lemma shift_down_gen {A} (x : A) (l : list A) k :
  (k ≤ length l)%nat →
  fold_left (λ acc i, match acc !! i with Some x => <[(i - 1)%nat := x]> acc | None => acc end)
    (seq 1 k) (x :: l)
  = take k l ++ drop k (x :: l).
Proof.
  induction k as [|k IH]; intros Hk; [done|].
  rewrite seq_S, fold_left_app, IH by lia. simpl.
  destruct (l !! k) as [y|] eqn:Hy; [|apply lookup_ge_None in Hy; lia].
  assert (Hlen : length (take k l) = k) by (rewrite take_length; lia).
  replace ((take k l ++ drop k (x :: l)) !! (S k)) with (Some y); cycle 1.
  { rewrite lookup_app_r by lia. rewrite Hlen, lookup_drop.
    replace (k + (S k - k))%nat with (S k) by lia. simpl. done. }
  replace (k - 0)%nat with (length (take k l) + 0)%nat by lia.
  rewrite insert_app_r. rewrite (take_S_r _ _ _ Hy), <- app_assoc. f_equal.
  destruct (drop k (x :: l)) as [|z zs] eqn:Hd.
  { apply (f_equal length) in Hd. rewrite drop_length in Hd. simpl in Hd. lia. }
  simpl. f_equal.
  change (drop k l) with (drop (S k) (x :: l)).
  replace (S k) with (k + 1)%nat by lia. rewrite <- drop_drop, Hd. done.
Qed.

Lemma shift_in {A} (l : list A) (c : A) :
  l ≠ [] → <[(length l - 1)%nat := c]> (shift_down l) = drop 1 l ++ [c].
Proof.
  intros Hne. destruct l as [|x l]; [done|]. unfold shift_down. simpl length.
  replace (S (length l) - 1)%nat with (length l) by lia.
  rewrite shift_down_gen by lia. rewrite take_ge by lia. simpl.
  replace (length l) with (length l + 0)%nat at 1 by lia. rewrite insert_app_r.
  f_equal. destruct (drop (length l) (x :: l)) as [|z zs] eqn:Hd.
  { apply (f_equal length) in Hd. rewrite drop_length in Hd. simpl in Hd. lia. }
  apply (f_equal length) in Hd. rewrite drop_length in Hd. simpl in Hd.
  destruct zs; [done|simpl in Hd; lia].
Qed.

Lemma create_interval_char a start :
  0 < a_max a → Z.of_nat (length (a_ints a)) ≤ a_max a →
  create_interval a start =
    Ok (Aggr (a_dur a) (a_retain a) (a_max a)
          (lastn (Z.to_nat (a_max a)) (a_ints a ++ [new_ia start]))).
Proof.
  intros H0 H1. unfold create_interval, lastn. rewrite app_length. simpl.
  destruct (Z.eqb_spec (Z.of_nat (length (a_ints a))) (a_max a)) as [He|He].
  - destruct (Nat.eqb_spec (length (a_ints a)) 0) as [Hz|Hz]; [lia|].
    rewrite shift_in by (destruct (a_ints a); simpl in *; [lia|done]).
    replace (length (a_ints a) + 1 - Z.to_nat (a_max a))%nat with 1%nat by lia.
    rewrite drop_app_le by lia. done.
  - replace (length (a_ints a) + 1 - Z.to_nat (a_max a))%nat with 0%nat by lia. done.
Qed.

(** ** lastn and squash *)
Lemma lastn_length {A} n (l : list A) : length (lastn n l) = (n `min` length l)%nat.
Proof. unfold lastn. rewrite drop_length. lia. Qed.

Lemma lastn_map {A B} (f : A → B) n (l : list A) : lastn n (map f l) = map f (lastn n l).
Proof. unfold lastn. rewrite map_length. symmetry. apply fmap_drop. Qed.

Lemma lastn_lastn_snoc {A} n (l : list A) x :
  (0 < n)%nat → lastn n (lastn n l ++ [x]) = lastn n (l ++ [x]).
Proof.
  intros Hn. unfold lastn. rewrite !app_length, drop_length. simpl.
  destruct (decide (n ≤ length l)%nat).
  - replace (length l - (length l - n) + 1 - n)%nat with 1%nat by lia.
    rewrite !drop_app_le by (rewrite ?drop_length; lia). rewrite drop_drop.
    do 2 f_equal. lia.
  - replace (length l - n)%nat with 0%nat by lia. simpl. f_equal. lia.
Qed.

Lemma lastn_last {A} n (l : list A) : (0 < n)%nat → last (lastn n l) = last l.
Proof.
  intros Hn. unfold lastn. destruct (decide (length l ≤ n)%nat).
  - by replace (length l - n)%nat with 0%nat by lia.
  - rewrite !last_lookup, lookup_drop, drop_length. f_equal. lia.
Qed.

Lemma elem_of_lastn {A} n (l : list A) x : x ∈ lastn n l → x ∈ l.
Proof.
  unfold lastn. intros H. rewrite <- (take_drop (length l - n) l).
  apply elem_of_app. auto.
Qed.

Lemma squash_last {A} `{EqDecision A} (l : list A) : last (squash l) = last l.
Proof.
  induction l as [|x [|y l] IH]; [done|done|].
  cbn [squash]. cbn [squash] in IH. destruct (decide (x = y)) as [->|].
  - rewrite IH. done.
  - rewrite last_cons, IH, (last_cons x). done.
Qed.

Lemma squash_snoc {A} `{EqDecision A} (l : list A) x :
  squash (l ++ [x]) = if decide (last l = Some x) then squash l else squash l ++ [x].
Proof.
  induction l as [|y [|z l] IH]; [done| |].
  - simpl. destruct (decide (y = x)) as [->|].
    + by rewrite decide_True by done.
    + rewrite decide_False by congruence. done.
  - change ((y :: z :: l) ++ [x]) with (y :: ((z :: l) ++ [x])).
    change (squash (y :: (z :: l) ++ [x])) with
      (if decide (y = z) then squash ((z :: l) ++ [x]) else y :: squash ((z :: l) ++ [x])).
    rewrite IH. change (last (y :: z :: l)) with (last (z :: l)).
    change (squash (y :: z :: l)) with
      (if decide (y = z) then squash (z :: l) else y :: squash (z :: l)).
    destruct (decide (y = z)), (decide (last (z :: l) = Some x)); done.
Qed.

Lemma elem_of_squash {A} `{EqDecision A} (l : list A) x : x ∈ squash l ↔ x ∈ l.
Proof.
  induction l as [|y l IH] using rev_ind; [done|].
  rewrite squash_snoc. destruct (decide (last l = Some y)) as [Hl|Hl].
  - rewrite IH, elem_of_app, elem_of_list_singleton. split; [auto|].
    intros [Hx| ->]; [done|]. apply last_Some in Hl as [l' ->]. apply elem_of_app. right. by left.
  - rewrite !elem_of_app, IH. done.
Qed.

Lemma squash_sorted (l : list Z) : StronglySorted Z.le l → StronglySorted Z.lt (squash l).
Proof.
  induction l as [|x l IH]; intros Hs; [constructor|].
  apply StronglySorted_inv in Hs as [Hs Hx]. specialize (IH Hs).
  destruct l as [|y l]; [repeat constructor|].
  change (StronglySorted Z.lt (if decide (x = y) then squash (y :: l) else x :: squash (y :: l))).
  destruct (decide (x = y)) as [->|Hne]; [done|].
  constructor; [done|].
  apply Forall_forall. intros z Hz. rewrite Forall_forall in Hx.
  rewrite elem_of_squash in Hz.
  apply StronglySorted_inv in Hs as [_ Hy]. rewrite Forall_forall in Hy.
  assert (x ≤ y) by (apply Hx; left).
  apply elem_of_cons in Hz as [->|Hz]; [lia|].
  specialize (Hy z Hz). lia.
Qed.

(** ** truncation *)
Lemma truncate_slot d t : 0 < d → truncate d t = slot d t.
Proof.
  intros Hd. unfold truncate, slot. destruct (Z.leb_spec d 0); [lia|].
  pose proof (Z.div_mod t d). lia.
Qed.

Lemma slot_mono d t t' : 0 < d → t ≤ t' → slot d t ≤ slot d t'.
Proof. intros Hd Ht. unfold slot. pose proof (Z.div_le_mono t t' d Hd Ht). nia. Qed.

Lemma slot_eq_iff d s t : 0 < d → (d | s) → (s ≤ t < s + d ↔ slot d t = s).
Proof.
  intros Hd [k ->]. unfold slot.
  pose proof (Z.div_mod t d). pose proof (Z.mod_pos_bound t d Hd). split.
  - intros Ht. assert (t `div` d = k) as -> by nia. lia.
  - intros Heq. nia.
Qed.

Lemma slot_divide d t : (d | slot d t).
Proof. exists (t `div` d). unfold slot. lia. Qed.

Lemma map_slot_sorted d l : 0 < d → StronglySorted Z.le l → StronglySorted Z.le (map (slot d) l).
Proof.
  intros Hd. induction 1 as [|x l Hs IH Hx]; simpl; constructor; [done|].
  apply Forall_forall. intros y Hy. apply elem_of_list_fmap in Hy as (z & -> & Hz).
  rewrite Forall_forall in Hx. apply slot_mono; auto.
Qed.

Lemma clock_monotone_snoc {A} (h : list (Z * A)) t o :
  clock_monotone (h ++ [(t, o)]) → clock_monotone h ∧ ∀ x, x ∈ h → x.1 ≤ t.
Proof.
  unfold clock_monotone. rewrite map_app. simpl. intros H.
  induction h as [|[u p] h IH]; simpl in *.
  - split; [constructor|]. intros x Hx. by apply elem_of_nil in Hx.
  - apply StronglySorted_inv in H as [H Hf]. apply IH in H as [H1 H2].
    rewrite Forall_forall in Hf. split.
    + constructor; [done|]. apply Forall_forall. intros z Hz. apply Hf. apply elem_of_app; auto.
    + intros x Hx. apply elem_of_cons in Hx as [->|Hx]; [|auto].
      simpl. apply Hf. apply elem_of_app. right. by left.
Qed.

(** ** the window *)
Definition ia_of (s : Z) (l : list cmd) : ia := fold_left ia_apply l (new_ia s).

Definition window (d mx : Z) (h : list (Z * aop)) : list Z :=
  lastn (Z.to_nat mx) (squash (map (λ x, slot d x.1) h)).

Lemma ia_apply_start a c : ia_start (ia_apply a c) = ia_start a.
Proof. by destruct c. Qed.

Lemma ia_of_start s l : ia_start (ia_of s l) = s.
Proof.
  unfold ia_of. induction l as [|c l IH] using rev_ind; [done|].
  rewrite fold_left_app. simpl. by rewrite ia_apply_start.
Qed.

Lemma cmds_in_app d s h1 h2 : cmds_in d s (h1 ++ h2) = cmds_in d s h1 ++ cmds_in d s h2.
Proof. apply omap_app. Qed.

Lemma cmds_in_out d s t o h :
  ¬ (s ≤ t < s + d) → cmds_in d s (h ++ [(t, o)]) = cmds_in d s h.
Proof.
  intros Hn. rewrite cmds_in_app. unfold cmds_in at 2. simpl.
  destruct o; try (by rewrite app_nil_r).
  rewrite bool_decide_false by done. by rewrite app_nil_r.
Qed.

Lemma cmds_in_nocmd d s t o h :
  (∀ c, o ≠ OpCmd c) → cmds_in d s (h ++ [(t, o)]) = cmds_in d s h.
Proof.
  intros Hn. rewrite cmds_in_app. unfold cmds_in at 2. simpl.
  destruct o; try (by rewrite app_nil_r). by destruct (Hn c).
Qed.

Lemma cmds_in_cmd d s t c h :
  s ≤ t < s + d → cmds_in d s (h ++ [(t, OpCmd c)]) = cmds_in d s h ++ [c].
Proof.
  intros Hn. rewrite cmds_in_app. unfold cmds_in at 2. simpl.
  by rewrite bool_decide_true.
Qed.

Lemma cmds_in_nil d s h :
  (∀ x, x ∈ h → ¬ (s ≤ x.1 < s + d)) → cmds_in d s h = [].
Proof.
  induction h as [|[t o] h IH]; intros H; [done|].
  change (cmds_in d s ([(t, o)] ++ h) = []). rewrite cmds_in_app, IH, app_nil_r.
  - change [(t, o)] with ([] ++ [(t, o)]). rewrite cmds_in_out; [done|].
    apply (H (t, o)). by left.
  - intros x Hx. apply H. by right.
Qed.

Lemma window_snoc d mx t o h :
  0 < mx →
  window d mx (h ++ [(t, o)]) =
    if decide (last (window d mx h) = Some (slot d t)) then window d mx h
    else lastn (Z.to_nat mx) (window d mx h ++ [slot d t]).
Proof.
  intros Hm. unfold window. rewrite map_app. simpl. rewrite squash_snoc.
  rewrite lastn_last by lia. rewrite squash_last.
  destruct (decide (last (map _ h) = Some (slot d t))); [done|].
  rewrite lastn_lastn_snoc by lia. done.
Qed.

Lemma on_last_snoc (F : ia → ia) l x : on_last F (l ++ [x]) = l ++ [F x].
Proof.
  unfold on_last. rewrite last_snoc, app_length. simpl.
  replace (length l + 1 - 1)%nat with (length l + 0)%nat by lia.
  by rewrite insert_app_r.
Qed.

Lemma last_app_inv {A} (l : list A) x : last l = Some x → ∃ l', l = l' ++ [x].
Proof. intros H. apply last_Some in H. done. Qed.

Section run.
  Context (d retain : Z).
  Notation mx := (Z.quot retain d).
  Notation run h := (agg_run (Aggr d retain mx []) h).
  Notation ints h w := (map (λ s, ia_of s (cmds_in d s h)) w).

  Lemma window_divide h s : s ∈ window d mx h → (d | s) ∧ ∃ x, x ∈ h ∧ s = slot d x.1.
  Proof using Type.
    intros H. apply elem_of_lastn, elem_of_squash, elem_of_list_fmap in H as (x & -> & Hx).
    split; [apply slot_divide|eauto].
  Qed.

  Lemma window_sorted h : 0 < d → clock_monotone h → StronglySorted Z.lt (window d mx h).
  Proof using Type.
    intros Hd Hc. unfold window, lastn.
    assert (StronglySorted Z.lt (squash (map (λ x, slot d x.1) h))) as Hs.
    { apply squash_sorted.
      replace (map (λ x : Z * aop, slot d x.1) h) with (map (slot d) (map fst h)) by apply map_map.
      by apply map_slot_sorted. }
    revert Hs. generalize (length (squash (map (λ x : Z * aop, slot d x.1) h)) - Z.to_nat mx)%nat.
    intros n. revert n. generalize (squash (map (λ x : Z * aop, slot d x.1) h)).
    intros l. induction l as [|y l IH]; intros [|n] Hs; simpl; try done.
    apply IH. by apply StronglySorted_inv in Hs as [? _].
  Qed.

  Lemma max_pos : 0 < d → d ≤ retain → 0 < mx.
  Proof using Type. intros Hd Hr. apply Z.quot_str_pos. lia. Qed.

  (** The whole state of the aggregator as a function of the history. *)
  Theorem run_char h :
    0 < d → d ≤ retain → clock_monotone h →
    run h = Ok (Aggr d retain mx (ints h (window d mx h))).
  Proof using Type.
    intros Hd Hr. pose proof (max_pos Hd Hr) as Hm.
    induction h as [|[t o] h IH] using rev_ind; intros Hc.
    { done. }
    apply clock_monotone_snoc in Hc as [Hc Ht]. specialize (IH Hc).
    rewrite agg_run_app, IH. simpl rbind.
    pose proof (window_snoc d mx t o h Hm) as Hw.
    set (w := window d mx h) in *.
    set (w' := window d mx (h ++ [(t, o)])) in *.
    (* state after getIntervalAggregation *)
    assert (get_interval (Aggr d retain mx (ints h w)) t =
            Ok (Aggr d retain mx (ints h w'))) as Hget.
    { unfold get_interval. simpl. rewrite truncate_slot by done.
      rewrite fmap_last.
      assert (Hlen : Z.of_nat (length w) ≤ mx) by (unfold w, window; rewrite lastn_length; lia).
      assert (create_interval (Aggr d retain mx (ints h w)) (slot d t) =
         Ok (Aggr d retain mx (lastn (Z.to_nat mx) (ints h w ++ [new_ia (slot d t)])))) as Hcr.
      { rewrite create_interval_char; [done|done|]. simpl. by rewrite map_length. }
      assert (last w ≠ Some (slot d t) →
        create_interval (Aggr d retain mx (ints h w)) (slot d t) = Ok (Aggr d retain mx (ints h w'))) as Hne.
      { intros Hl. rewrite Hcr. do 2 f_equal. rewrite Hw.
        rewrite decide_False by done. rewrite <- lastn_map, map_app. simpl. do 3 f_equal.
        rewrite cmds_in_nil; [done|].
        intros x Hx Hin. apply slot_eq_iff in Hin; [|done|apply slot_divide].
        (* the clock did not go back, so the last slot is >= slot x = slot t *)
        apply Hl. unfold w, window. rewrite lastn_last by lia. rewrite squash_last.
        clear -Hx Hin Hd Ht Hc.
        destruct (last h) as [y|] eqn:Hy; cycle 1.
        { apply last_None in Hy. subst. by apply elem_of_nil in Hx. }
        rewrite fmap_last, Hy. simpl. f_equal.
        apply last_app_inv in Hy as [h' ->]. destruct y as [ty oy].
        apply clock_monotone_snoc in Hc as [_ Hc'].
        assert (slot d x.1 ≤ slot d ty).
        { apply elem_of_app in Hx as [Hx|Hx].
          - apply slot_mono; [done|]. by apply Hc'.
          - apply elem_of_list_singleton in Hx as ->. simpl. lia. }
        assert (slot d ty ≤ slot d t).
        { apply slot_mono; [done|]. apply (Ht (ty, oy)). apply elem_of_app. right. by left. }
        simpl. lia. }
      destruct (last w) as [s|] eqn:Hl; simpl.
      - rewrite ia_of_start. destruct (Z.eqb_spec s (slot d t)) as [->|Hs].
        + rewrite Hw, decide_True by done. done.
        + apply Hne. congruence.
      - apply Hne. done. }
    (* the last slot of the new window is the current one *)
    assert (∃ w0, w' = w0 ++ [slot d t]) as [w0 Hw0].
    { apply last_app_inv. unfold w', window. rewrite lastn_last by lia.
      rewrite squash_last, map_app. simpl. by rewrite last_snoc. }
    (* the other slots are unaffected by the new step *)
    assert (∀ s, s ∈ w0 → cmds_in d s (h ++ [(t, o)]) = cmds_in d s h) as Hrest.
    { intros s Hs. apply cmds_in_out.
      assert (s ∈ w') as Hs' by (rewrite Hw0; apply elem_of_app; auto).
      apply window_divide in Hs' as [Hdv _]. intros Hin.
      apply slot_eq_iff in Hin; [|done|done].
      assert (StronglySorted Z.lt w') as Hss.
      { unfold w'. apply window_sorted; [done|]. unfold clock_monotone. rewrite map_app. simpl.
        clear -Hc Ht. unfold clock_monotone in Hc. induction h as [|x h IH]; simpl; [repeat constructor|].
        simpl in Hc. apply StronglySorted_inv in Hc as [Hc Hf]. constructor.
        - apply IH; [done|]. intros y Hy. apply Ht. by right.
        - apply Forall_app. split; [done|]. constructor; [|constructor]. apply Ht. by left. }
      rewrite Hw0 in Hss. clear -Hss Hs Hin.
      assert (s < slot d t); [|lia].
      revert Hss. induction w0 as [|y w0 IH]; [by apply elem_of_nil in Hs|].
      intros Hss. simpl in Hss. apply StronglySorted_inv in Hss as [Hss Hf].
      apply elem_of_cons in Hs as [->|Hs]; [|auto].
      rewrite Forall_forall in Hf. apply Hf. apply elem_of_app. right. by left. }
    assert (∀ ws, (∀ s, s ∈ ws → s ∈ w0) → ints (h ++ [(t, o)]) ws = ints h ws) as Hmap.
    { intros ws Hws. apply map_ext_in. intros s Hs. f_equal. apply Hrest, Hws.
      by apply elem_of_list_In. }
    assert ((∀ c, o ≠ OpCmd c) → ints (h ++ [(t, o)]) w' = ints h w') as Hno.
    { intros Ho. apply map_ext. intros s. f_equal. by apply cmds_in_nocmd. }
    simpl. unfold agg_step, memory_safe_intervals. rewrite Hget.
    destruct o as [c| |]; simpl.
    - rewrite Hw0, !map_app. simpl. rewrite on_last_snoc. do 3 f_equal.
      + symmetry. apply Hmap. done.
      + f_equal. rewrite cmds_in_cmd by (apply slot_eq_iff; [done|apply slot_divide|done]).
        unfold ia_of at 2. rewrite fold_left_app. done.
    - by rewrite Hno by done.
    - by rewrite Hno by done.
  Qed.
End run.
