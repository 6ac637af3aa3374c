(** * The aggregator on the heap *)
From Verif Require Import PAgg PAgg2.
From Verif Require Export PHeap3.
#[local] Open Scope Z_scope.

(** ** slices *)
Definition arr_own (s : slice) (cap : nat) (ps : list addr) : hP :=
  (∃ arr, sl_arr s ↦ VArr arr ∗
     ⌜sl_cap s = cap ∧ length arr = cap ∧ sl_len s = length ps ∧ take (length ps) arr = Some <$> ps⌝)%I.

Lemma arr_len (cap : nat) (ps : list addr) (arr : list (option addr)) :
  length arr = cap → take (length ps) arr = Some <$> ps → (length ps ≤ cap)%nat.
Proof. intros <- H. apply (f_equal length) in H. rewrite take_length fmap_length in H. lia. Qed.
Lemma arr_lookup ps (arr : list (option addr)) i p :
  take (length ps) arr = Some <$> ps → ps !! i = Some p → arr !! i = Some (Some p).
Proof.
  intros H Hi. assert (H2 : (Some <$> ps) !! i = Some (Some p)) by (by rewrite list_lookup_fmap Hi).
  rewrite -H in H2. by apply lookup_take_Some in H2 as [? _].
Qed.
Lemma arr_split ps (arr : list (option addr)) :
  take (length ps) arr = Some <$> ps → arr = (Some <$> ps) ++ drop (length ps) arr.
Proof. intros <-. by rewrite take_drop. Qed.

Section slices.
  Context (hr : heap).

  Lemma wp_make cap Q : (∀ s, arr_own s cap [] -∗ Q s) ⊢ wp hr (h_make cap) Q.
  Proof.
    iIntros "HQ". wbind. iApply wp_alloc. iIntros (p) "Hp". iApply wp_ret. iApply "HQ".
    iExists _. iFrame. iPureIntro. cbn. split_and!; try done. apply replicate_length.
  Qed.
  Lemma wp_index s cap ps i p Q : ps !! i = Some p →
    arr_own s cap ps -∗ (arr_own s cap ps -∗ Q p) -∗ wp hr (h_index s i) Q.
  Proof.
    iIntros (Hi) "H HQ". iDestruct "H" as (arr) "[H %Ha]". destruct Ha as (Hc & Hl & Hn & Ht).
    unfold h_index. assert (Nat.ltb i (sl_len s) = true) as ->.
    { apply Nat.ltb_lt. rewrite Hn. by eapply lookup_lt_Some. }
    wbind. iApply (wp_load_arr with "H"). iIntros "H". rewrite (arr_lookup _ _ _ _ Ht Hi).
    iApply wp_ret. iApply "HQ". iExists arr. by iFrame.
  Qed.
  Lemma wp_append_in s cap ps p Q : (length ps < cap)%nat →
    arr_own s cap ps -∗ (∀ s', arr_own s' cap (ps ++ [p]) -∗ Q s') -∗ wp hr (h_append s p) Q.
  Proof.
    iIntros (Hlt) "H HQ". iDestruct "H" as (arr) "[H %Ha]". destruct Ha as (Hc & Hl & Hn & Ht).
    unfold h_append. wbind. iApply (wp_load_arr with "H"). iIntros "H".
    assert (Nat.ltb (sl_len s) (sl_cap s) = true) as -> by (apply Nat.ltb_lt; lia).
    wbind. iApply (wp_store with "H"). iIntros "H". iApply wp_ret. iApply "HQ".
    iExists _. iFrame. iPureIntro. cbn. split_and!; [done|by rewrite insert_length| |].
    - rewrite app_length /=. lia.
    - rewrite app_length /= fmap_app Hn. rewrite (arr_split _ _ Ht).
      set (r := drop (length ps) arr). assert (Hr : r ≠ []).
      { intros E. apply (f_equal length) in E. unfold r in E. rewrite drop_length /= in E. lia. }
      destruct r as [|r0 r]; [done|].
      replace (length ps) with (length (Some <$> ps) + 0)%nat at 2 by (rewrite fmap_length; lia).
      rewrite insert_app_r /=.
      rewrite (app_assoc (Some <$> ps) [Some p] r). rewrite take_app_alt; [done|].
      by rewrite app_length fmap_length /=.
  Qed.
  Lemma wp_append s cap ps p Q :
    arr_own s cap ps -∗ (∀ s' cap', arr_own s' cap' (ps ++ [p]) -∗ Q s') -∗ wp hr (h_append s p) Q.
  Proof.
    iIntros "H HQ". destruct (decide (length ps < cap)%nat) as [Hlt|Hge].
    - iApply (wp_append_in with "H"); [done|]. iIntros (s') "H". by iApply "HQ".
    - iDestruct "H" as (arr) "[H %Ha]". destruct Ha as (Hc & Hl & Hn & Ht).
      pose proof (arr_len _ _ _ Hl Ht) as Hle.
      unfold h_append. wbind. iApply (wp_load_arr with "H"). iIntros "H".
      assert (Nat.ltb (sl_len s) (sl_cap s) = false) as -> by (apply Nat.ltb_ge; lia).
      wbind. iApply wp_alloc. iIntros (q) "Hq". iApply wp_ret. iApply ("HQ" $! _ (S (2 * sl_cap s))).
      iExists _. iFrame. iPureIntro. cbn [sl_cap sl_len]. rewrite Hn Ht. split_and!.
      + done.
      + rewrite app_length fmap_length /= replicate_length. lia.
      + rewrite app_length /=. lia.
      + rewrite app_length /= fmap_app.
        rewrite (app_assoc (Some <$> ps) [Some p] (replicate _ _)). rewrite take_app_alt; [done|].
        by rewrite app_length fmap_length /=.
  Qed.

  Lemma wp_set s cap ps i p Q : (i < length ps)%nat →
    arr_own s cap ps -∗ (arr_own s cap (<[i := p]> ps) -∗ Q tt) -∗ wp hr (h_set s i p) Q.
  Proof.
    iIntros (Hi) "H HQ". iDestruct "H" as (arr) "[H %Ha]". destruct Ha as (Hc & Hl & Hn & Ht).
    unfold h_set. assert (Nat.ltb i (sl_len s) = true) as -> by (apply Nat.ltb_lt; lia).
    wbind. iApply (wp_load_arr with "H"). iIntros "H". iApply (wp_store with "H"). iIntros "H".
    iApply "HQ". iExists _. iFrame. iPureIntro. rewrite !insert_length. split_and!; try done.
    rewrite list_fmap_insert -Ht. by apply take_insert_lt.
  Qed.

  (** aggregator.go:142-144 *)
  Definition sh_step (acc : list addr) (i : nat) : list addr :=
    match acc !! i with Some x => <[(i - 1)%nat := x]> acc | None => acc end.
  Lemma wp_shift s cap ps (Q : unit → hP) :
    arr_own s cap ps -∗ (arr_own s cap (shift_down ps) -∗ Q tt) -∗
    wp hr (hfold (λ _ i, p ←h h_index s i; h_set s (i - 1) p) (seq 1 (length ps - 1)) tt) Q.
  Proof.
    iIntros "H HQ".
    iApply (wp_loop hr (λ acc, ⌜length acc = length ps⌝ ∗ arr_own s cap acc)%I sh_step
      (λ b c, b = c ∧ (1 ≤ b < length ps)%nat) _ (seq 1 (length ps - 1)) (seq 1 (length ps - 1)) ps with "[H]").
    { intros acc i ? [<- Hi]. iIntros "[%Hacc H]".
      destruct (acc !! i) as [q|] eqn:Hq; [|apply lookup_ge_None in Hq; lia].
      wbind. iApply (wp_index with "H"); [done|]. iIntros "H".
      iApply (wp_set with "H"); [lia|]. iIntros "H". unfold sh_step. rewrite Hq. iFrame.
      iPureIntro. by rewrite insert_length. }
    { apply Forall2_same_length_lookup_2; [done|]. intros i x y Hx Hy. split; [congruence|].
      apply lookup_seq in Hx. lia. }
    { iFrame. done. }
    iIntros "[_ H]". iApply "HQ". done.
  Qed.
End slices.

Lemma shift_down_length {A} (l : list A) : length (shift_down l) = length l.
Proof.
  unfold shift_down. generalize (seq 1 (length l - 1)). intros ns. revert l.
  induction ns as [|i ns IH]; intros l; [done|]. cbn. rewrite IH. destruct (l !! i); [|done]. apply insert_length.
Qed.

(** ** the aggregator *)
Definition same_conf (a : haggr) (v : aggr) : Prop :=
  ha_dur a = a_dur v ∧ ha_retain a = a_retain v ∧ ha_max a = a_max v.
Definition held (F : heap) (fz : list (addr * ia)) (q : addr) (y : ia) : Prop := shows F q y ∨ (q, y) ∈ fz.
Definition fz_own (fz : list (addr * ia)) : hP := ([∗ list] qy ∈ fz, ia_rep qy.1 qy.2)%I.

Definition agg_own (F : heap) (a : haggr) (v : aggr) : hP :=
  ((⌜a_ints v = []⌝ ∗ arr_own (ha_ints a) (Z.to_nat (a_max v)) []) ∨
   (∃ ops oints p x, ⌜a_ints v = oints ++ [x] ∧ Forall2 (shows F) ops oints⌝ ∗
      arr_own (ha_ints a) (Z.to_nat (a_max v)) (ops ++ [p]) ∗ ia_rep p x))%I.
(** with the intervals [fz] just superseded *)
Definition agg_cur (F : heap) (a : haggr) (v : aggr) (p : addr) (x : ia) ops oints fz : hP :=
  (⌜a_ints v = oints ++ [x] ∧ Forall2 (held F fz) ops oints⌝ ∗
   arr_own (ha_ints a) (Z.to_nat (a_max v)) (ops ++ [p]) ∗ ia_rep p x ∗ fz_own fz)%I.

Lemma wp_create F a v start v' ps fz (Q : haggr * addr → hP) :
  same_conf a v → 0 < a_max v → Z.of_nat (length (a_ints v)) ≤ a_max v →
  create_interval v start = Ok v' → Forall2 (held F fz) ps (a_ints v) →
  arr_own (ha_ints a) (Z.to_nat (a_max v)) ps -∗ fz_own fz -∗
  (∀ a' p x ops oints, ⌜same_conf a' v'⌝ -∗ agg_cur F a' v' p x ops oints fz -∗ Q (a', p)) -∗
  wp F (h_create a start) Q.
Proof.
  iIntros (Hc Hm Hle Hcr Hps) "H Hfz HQ". destruct Hc as (Hd & Hrt & Hmx).
  pose proof (Forall2_length _ _ _ Hps) as Hlen.
  iAssert (⌜sl_len (ha_ints a) = length ps⌝)%I as %Hn.
  { iDestruct "H" as (arr) "[_ %Ha]". iPureIntro. by destruct Ha as (_ & _ & ? & _). }
  unfold h_create. wbind. iApply wp_new_ia. iIntros (c) "Hc". rewrite Hn Hmx Hlen.
  unfold create_interval in Hcr.
  destruct (Z.eqb_spec (Z.of_nat (length (a_ints v))) (a_max v)) as [He|He].
  - destruct (Nat.eqb_spec (length (a_ints v)) 0) as [Hz|Hz]; [lia|]. injection Hcr as <-.
    wbind. rewrite -Hlen. iApply (wp_shift with "H"). iIntros "H".
    wbind. iApply (wp_set with "H"). { rewrite shift_down_length. lia. } iIntros "H".
    rewrite shift_in; [|by destruct ps]. iApply wp_ret. iApply ("HQ" $! _ _ (new_ia start) (drop 1 ps) (drop 1 (a_ints v))).
    + done.
    + iFrame. iPureIntro. cbn. split; [|by apply Forall2_drop]. rewrite Hlen. apply shift_in. by destruct (a_ints v).
  - injection Hcr as <-. wbind. iApply (wp_append_in with "H"); [lia|]. iIntros (s') "H".
    iApply wp_ret. iApply ("HQ" $! _ _ (new_ia start) ps (a_ints v)); [done|]. iFrame. done.
Qed.

Lemma wp_get F a v t v' (Q : haggr * addr → hP) :
  same_conf a v → 0 < a_max v → Z.of_nat (length (a_ints v)) ≤ a_max v →
  get_interval v t = Ok v' →
  agg_own F a v -∗
  (∀ a' p x ops oints fz, ⌜same_conf a' v'⌝ -∗ agg_cur F a' v' p x ops oints fz -∗ Q (a', p)) -∗
  wp F (h_get a t) Q.
Proof.
  iIntros (Hc Hm Hle Hg) "H HQ". unfold h_get, get_interval in *. pose proof Hc as (Hd & Hrt & Hmx). rewrite Hd.
  iDestruct "H" as "[[%Hv H]|H]".
  - rewrite Hv in Hg. cbn in Hg.
    iAssert (⌜sl_len (ha_ints a) = 0%nat⌝)%I as %Hn.
    { iDestruct "H" as (arr) "[_ %Ha]". iPureIntro. by destruct Ha as (_ & _ & ? & _). }
    rewrite Hn. cbn [Nat.ltb Nat.leb].
    iApply (wp_create _ _ _ _ _ [] [] with "H []"); try done. { rewrite Hv. constructor. } { by rewrite /fz_own. }
    iIntros (a' p x ops oints) "%H1 H2". by iApply "HQ".
  - iDestruct "H" as (ops oints p x) "([%Hv %Hops] & H & Hp)". rewrite Hv last_snoc in Hg.
    iAssert (⌜sl_len (ha_ints a) = S (length ops)⌝)%I as %Hn.
    { iDestruct "H" as (arr) "[_ %Ha]". iPureIntro. destruct Ha as (_ & _ & -> & _). rewrite app_length /=. lia. }
    rewrite Hn. cbn [Nat.ltb Nat.leb].
    wbind. iApply (wp_index with "H"). { replace (S (length ops) - 1)%nat with (length ops) by lia. by apply list_lookup_middle. }
    iIntros "H". iDestruct "Hp" as (jobs maps) "(Hp & Hj & Hmp)".
    wbind. iApply (wp_load_ia with "Hp"). iIntros "Hp". cbn [hi_start].
    iAssert (ia_rep p x) with "[Hp Hj Hmp]" as "Hp". { iExists jobs, maps. iFrame. }
    destruct (ia_start x =? truncate (a_dur v) t).
    + injection Hg as <-. iApply wp_ret. iApply ("HQ" $! _ _ x ops oints []); [done|].
      iFrame. iSplit; [|by rewrite /fz_own]. iPureIntro. split; [done|]. eapply Forall2_impl; [done|]. intros; by left.
    + iApply (wp_create _ _ _ _ _ (ops ++ [p]) [(p, x)] with "H [Hp]"); try done.
      * rewrite Hv. apply Forall2_app; [|repeat constructor; right; left].
        eapply Forall2_impl; [done|]. intros; by left.
      * iSplitL; done.
      * iIntros (a' p' x' ops' oints') "%H1 H2". by iApply "HQ".
Qed.

Lemma pts_ne x y (v w : cell) : (x ↦ v : hP) -∗ y ↦ w -∗ ⌜x ≠ y⌝.
Proof.
  apply bi.wand_intro_r.
  apply hprop_entails_at. intros h (h1 & h2 & -> & Hd & H1 & H2).
  apply hprop_pure_at. intros ->. cbn in *.
  exact (proj1 (map_disjoint_spec h1 h2) Hd _ _ _ H1 H2).
Qed.
(** what is owned is not read-only *)
Lemma wp_fresh {A} F (c : M A) (Q : A → hP) x v :
  x ↦ v -∗ (⌜F !! x = None⌝ -∗ x ↦ v -∗ wp F c Q) -∗ wp F c Q.
Proof.
  apply bi.wand_intro_r.
  apply hprop_entails_at. intros h (h1 & h2 & -> & Hd & H1 & H2) o s hf Ho Hdf Hr Hh.
  assert (Hx : F !! x = None).
  { apply eq_None_not_Some. intros [y E]. cbn in H1.
    apply map_disjoint_union_l in Hdf as [Hdf _].
    exact (proj1 (map_disjoint_spec h1 hf) Hdf _ _ _ H1 (lookup_weaken _ _ _ _ E Hr)). }
  specialize (H2 ∅ (map_disjoint_empty_r _) Hx h1).
  rewrite (right_id_L ∅ (∪)) in H2.
  specialize (H2 (symmetry Hd) H1). rewrite (map_union_comm h2 h1 (symmetry Hd)) in H2.
  by apply (H2 o s hf).
Qed.

Lemma hfold_app {A B} (body : A → B → M A) l1 l2 a o s :
  hbind (hfold body l1 a) (hfold body l2) o s = hfold body (l1 ++ l2) a o s.
Proof.
  revert a s. induction l1 as [|b l1 IH]; intros a s; [done|]. cbn. unfold hbind at 1 2 3. destruct (body a b o s) as [[s1 a1]|]; [|done].
  apply IH.
Qed.
Lemma wp_hfold_app {A B} F (body : A → B → M A) l1 l2 a (Q : A → hP) :
  wp F (hfold body l1 a) (λ a', wp F (hfold body l2 a') Q) ⊢ wp F (hfold body (l1 ++ l2) a) Q.
Proof. etrans; [apply wp_bind|]. apply wp_ext. intros o s. apply hfold_app. Qed.

(** aggregator.go:66-79 *)
Lemma wp_memory_safe F a v t v' (Q : haggr * slice → hP) :
  same_conf a v → 0 < a_max v → Z.of_nat (length (a_ints v)) ≤ a_max v →
  get_interval v t = Ok v' →
  agg_own F a v -∗
  (∀ a' p x ops oints fz out cap q, ⌜same_conf a' v'⌝ -∗ agg_cur F a' v' p x ops oints fz -∗
     arr_own out cap (ops ++ [q]) -∗ ia_rep q x -∗ Q (a', out)) -∗
  wp F (h_memory_safe a t) Q.
Proof.
  iIntros (Hc Hm Hle Hg) "H HQ". unfold h_memory_safe.
  wbind. iApply wp_make. iIntros (out) "Ho".
  wbind. iApply (wp_get with "H"); [done..|]. iIntros (a' p x ops oints fz Hc') "([%Hv %Hops] & H & Hp & Hfz)".
  cbn [fst snd].
  iDestruct "Hp" as (jobs maps) "(Hp & Hj & Hmp)".
  iApply (wp_fresh with "Hp"). iIntros (HF) "Hp".
  iAssert (⌜p ∉ ops⌝)%I as %Hnin.
  { iIntros (Hin). apply elem_of_list_lookup in Hin as [i Hi].
    destruct (Forall2_lookup_l _ _ _ _ _ Hops Hi) as (y & Hy & [Hsh|Hin]).
    - destruct Hsh as (? & ? & ? & Hsh & _). discriminate (eq_trans (eq_sym HF) Hsh).
    - iDestruct (big_sepL_elem_of with "Hfz") as "Hq"; [exact Hin|]. cbn.
      iDestruct "Hq" as (? ?) "(Hq & _)". iDestruct (pts_ne with "Hp Hq") as %Hpq. done. }
  iAssert (ia_rep p x) with "[Hp Hj Hmp]" as "Hp". { iExists jobs, maps. iFrame. }
  iAssert (⌜sl_len (ha_ints a') = S (length ops)⌝)%I as %Hn.
  { iDestruct "H" as (arr) "[_ %Ha]". iPureIntro. destruct Ha as (_ & _ & -> & _). rewrite app_length /=. lia. }
  rewrite Hn seq_S. wbind. iApply wp_hfold_app.
  set (I := λ (l : list nat) (out : slice),
    (arr_own (ha_ints a') (Z.to_nat (a_max v')) (ops ++ [p]) ∗ ∃ cap, arr_own out cap (take (length l) ops))%I).
  iApply (wp_mfold _ _ I [] with "[H Ho]").
  - intros l1 i l2 b Hsp. cbn [app]. iIntros "[H Ho]". iDestruct "Ho" as (cap) "Ho".
    assert (Hi : seq 0 (length ops) !! length l1 = Some i) by (rewrite Hsp; by apply list_lookup_middle).
    apply lookup_seq in Hi as [Hi Hlt]. cbn in Hi. subst i.
    destruct (ops !! length l1) as [q|] eqn:Hq; [|apply lookup_ge_None in Hq; lia].
    wbind. iApply (wp_index with "H"). { by rewrite lookup_app_l. } iIntros "H".
    destruct (Pos.eqb_spec q p) as [->|Hne]. { exfalso. apply Hnin. by eapply elem_of_list_lookup_2. }
    iApply (wp_append with "Ho"). iIntros (s' cap') "Ho". iFrame "H". iExists cap'.
    rewrite app_length /= Nat.add_1_r (take_S_r _ _ _ Hq). done.
  - iFrame "H". iExists _. done.
  - cbn [app]. iIntros (b) "[H Ho]". iDestruct "Ho" as (cap) "Ho". rewrite seq_length firstn_all.
    cbn [hfold]. wbind. wbind. iApply (wp_index with "H"). { cbn. by apply list_lookup_middle. } iIntros "H".
    rewrite Pos.eqb_refl. wbind.
    iApply (wp_wand with "[Hp]").
    { iApply (wp_share _ _ (λ q, ia_rep q x)); [|iExact "Hp"]. intros h1 Hh1. iApply wp_clone_ia; [by apply ia_shows|].
      iIntros (q) "H". done. }
    iIntros (q) "[Hp Hq]". iApply (wp_append with "Ho"). iIntros (s' cap') "Ho".
    iApply wp_ret. iApply wp_ret. iApply ("HQ" with "[//] [H Hp Hfz] Ho Hq"). iFrame. done.
Qed.

(** ** one iteration of the loop *)
Definition out_own (r : option (list ia)) (sl : option slice) (ops : list addr) (oints : list ia) (x : ia) : hP :=
  match r, sl with
  | None, None => emp
  | Some l, Some out => ∃ cap q, ⌜l = oints ++ [x]⌝ ∗ arr_own out cap (ops ++ [q]) ∗ ia_rep q x
  | _, _ => False
  end%I.
Definition step_post (F : heap) (v' : aggr) (r : option (list ia)) (res : haggr * option slice) : hP :=
  (∃ p x ops oints fz, ⌜same_conf res.1 v'⌝ ∗ ⌜a_ints v' = oints ++ [x] ∧ Forall2 (held F fz) ops oints⌝ ∗
     (arr_own (ha_ints res.1) (Z.to_nat (a_max v')) (ops ++ [p]) ∗ ia_rep p x) ∗
     (fz_own fz ∗ out_own r res.2 ops oints x))%I.

Lemma on_last_snoc f l i : on_last f (l ++ [i]) = l ++ [f i].
Proof.
  unfold on_last. rewrite last_snoc app_length /=. replace (length l + 1 - 1)%nat with (length l + 0)%nat by lia.
  by rewrite insert_app_r.
Qed.

Lemma wp_step F a v t o v' r :
  same_conf a v → 0 < a_max v → Z.of_nat (length (a_ints v)) ≤ a_max v →
  agg_step v t o = Ok (v', r) →
  agg_own F a v ⊢ wp F (h_step a t o) (step_post F v' r).
Proof.
  iIntros (Hc Hm Hle Hs) "H". destruct (get_interval_safe v t Hm Hle) as (v1 & Hg & _).
  unfold agg_step, memory_safe_intervals in Hs. rewrite Hg in Hs. cbn in Hs.
  destruct o as [c| |]; injection Hs as <- <-; cbn [h_step].
  - wbind. iApply (wp_get with "H"); [done..|]. iIntros (a' p x ops oints fz Hc') "([%Hv %Hops] & H & Hp & Hfz)".
    cbn [fst snd]. wbind. iApply (wp_apply with "Hp"). iIntros "Hp". iApply wp_ret.
    iExists p, (ia_apply x c), ops, oints, fz. cbn. iFrame. iPureIntro. split_and!; try done.
    rewrite Hv. apply on_last_snoc.
  - wbind. iApply (wp_get with "H"); [done..|]. iIntros (a' p x ops oints fz Hc') "([%Hv %Hops] & H & Hp & Hfz)".
    iApply wp_ret. iExists p, x, ops, oints, fz. cbn. iFrame. done.
  - wbind. iApply (wp_memory_safe with "H"); [done..|].
    iIntros (a' p x ops oints fz out cap q Hc') "([%Hv %Hops] & H & Hp & Hfz) Ho Hq".
    iApply wp_ret. iExists p, x, ops, oints, fz. cbn. iFrame. iSplit; [done|]. iSplit; [done|].
    iExists cap, q. iFrame. done.
Qed.

Lemma arr_at s cap ps h : hprop_at (arr_own s cap ps) h →
  ∃ arr, h !! sl_arr s = Some (VArr arr) ∧ sl_len s = length ps ∧ take (sl_len s) arr = Some <$> ps.
Proof.
  intros (arr & h1 & h2 & -> & Hd & H1 & H2). apply hprop_pure_at in H2 as (_ & _ & Hn & Ht). cbn in H1.
  exists arr. split_and!; [by apply lookup_union_Some_l|done|by rewrite Hn].
Qed.

Lemma fz_at fz q y h : hprop_at (fz_own fz) h → (q, y) ∈ fz → shows h q y.
Proof.
  intros H Hin. apply ia_shows. revert h H. apply (proj1 (hprop_entails_at _ _)). iIntros "H".
  iDestruct (big_sepL_elem_of with "H") as "H"; [exact Hin|]. done.
Qed.

(** what a snapshot shows, in the part of the heap the aggregator no longer owns *)
Definition out_shows (h : heap) (r : option (list ia)) (sl : option slice) : Prop :=
  match r, sl with
  | None, None => True
  | Some l, Some out => shows_slice h out l
  | _, _ => False
  end.

Lemma step_meta a v t op v' r o s hA hf :
  fair o → same_conf a v → 0 < a_max v → Z.of_nat (length (a_ints v)) ≤ a_max v →
  s_heap s = hA ∪ hf → hA ##ₘ hf → hprop_at (agg_own hf a v) hA →
  agg_step v t op = Ok (v', r) →
  ∃ s' a' sl hA' hf' w,
    h_step a t op o s = Ok (s', (a', sl)) ∧ s_log s' = w ++ s_log s ∧ (∀ x, x ∈ w → hf !! x = None) ∧
    same_conf a' v' ∧ s_heap s' = hA' ∪ hf' ∧ hA' ##ₘ hf' ∧ hf ⊆ hf' ∧
    hprop_at (agg_own hf' a' v') hA' ∧ out_shows hf' r sl.
Proof.
  intros Ho Hc Hm Hle Hh Hd HA Hs.
  pose proof (proj1 (hprop_entails_at _ _) (wp_step hf a v t op v' r Hc Hm Hle Hs) hA HA) as HW.
  destruct (wp_run _ _ _ o s hA hf HW Ho Hd (reflexivity hf) Hh) as (h' & s' & [a' sl] & w & Hrun & Hd' & Hh' & Hl & Hw & _ & HP).
  destruct HP as (p & x & ops & oints & fz & HP).
  apply hprop_sep_at in HP as (g1 & g2 & -> & Hg1 & Hc' & HP). apply hprop_pure_at in Hc'.
  apply hprop_sep_at in HP as (g3 & g4 & -> & Hg2 & Hv & HP). apply hprop_pure_at in Hv as [Hv Hops].
  apply hprop_sep_at in HP as (g5 & g6 & -> & Hg3 & Hcur & Hrest).
  cbn [fst snd] in *.
  set (hf' := g6 ∪ hf). set (hA' := g1 ∪ (g3 ∪ g5)).
  rewrite ?map_disjoint_union_r in Hg1 Hg2. rewrite !map_disjoint_union_l in Hd'.
  destruct Hg1 as (Hg13 & Hg15 & Hg16). destruct Hg2 as (Hg35 & Hg36). destruct Hd' as (Hd1 & Hd3 & Hd5 & Hd6).
  assert (Hsub : hf ⊆ hf') by (by apply map_union_subseteq_r).
  assert (Hrs : g6 ⊆ hf') by apply map_union_subseteq_l.
  assert (Hcur' : hprop_at (arr_own (ha_ints a') (Z.to_nat (a_max v')) (ops ++ [p]) ∗ ia_rep p x)%I hA').
  { eapply hprop_closed; [exact Hcur|]. unfold hA'. etrans; [by apply map_union_subseteq_r|].
    apply map_union_subseteq_r. by apply map_disjoint_union_r. }
  apply hprop_sep_at in Hrest as (g7 & g8 & E & Hg7 & Hfz & Hout).
  assert (H7 : g7 ⊆ hf') by (etrans; [|exact Hrs]; rewrite E; apply map_union_subseteq_l).
  assert (H8 : g8 ⊆ hf') by (etrans; [|exact Hrs]; rewrite E; by apply map_union_subseteq_r).
  assert (Hshow : Forall2 (shows hf') ops oints).
  { eapply Forall2_impl; [exact Hops|]. intros q y [Hq|Hq].
    - exact (shows_mono hf hf' q y Hsub Hq).
    - apply (shows_mono g7 hf' q y H7). by eapply fz_at. }
  exists s', a', sl, hA', hf', w. split_and!; try done.
  - rewrite Hh'. unfold hf', hA'. by rewrite !(assoc_L (∪)).
  - unfold hA', hf'. rewrite !map_disjoint_union_l !map_disjoint_union_r. done.
  - right. exists ops, oints, p, x. apply hprop_sep_at. exists ∅, hA'. split_and!; [by rewrite (left_id_L _ _)|apply map_disjoint_empty_l|done|done].
  - destruct r as [l|], sl as [out|]; cbn in *; try done.
    destruct Hout as (cap & q & k1 & k2 & -> & Hk & -> & k3 & k4 & -> & Hk' & Hao & Hq).
    destruct (arr_at _ _ _ _ Hao) as (arr & Harr & _ & Ht).
    exists arr. split.
    + eapply lookup_weaken; [exact Harr|]. etrans; [|exact H8]. etrans; [apply map_union_subseteq_l|by apply map_union_subseteq_r].
    + rewrite Ht fmap_app. apply Forall2_app.
      * apply Forall2_fmap_l. eapply Forall2_impl; [exact Hshow|]. eauto.
      * repeat constructor. exists q. split; [done|]. eapply shows_mono; [|by apply ia_shows].
        etrans; [|exact H8]. etrans; [by apply map_union_subseteq_r|by apply map_union_subseteq_r].
Qed.
