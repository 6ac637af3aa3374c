(** * healthtop's loops *)
From Verif Require Export STopLoop STop.
From Verif Require Import PTop.

Lemma tl_run_snoc {A} (s : tloop A) tr e s' : tl_run s (tr ++ [e]) = Some s' ↔ ∃ m, tl_run s tr = Some m ∧ tl_step m e = Some s'.
Proof.
  revert s. induction tr as [|x tr IH]; intros s; cbn.
  - split.
    + intros H. exists s. split; [done|]. destruct (tl_step s e); [exact H|done].
    + intros (m & [= ->] & ->). done.
  - destruct (tl_step s x) as [s1|]; cbn; [apply IH|]. split; [done|]. by intros (m & ? & _).
Qed.

(** what the state says of the events *)
Record tinv {A} (tr : list (tlev A)) (s : tloop A) : Prop := {
  ti_len : length (tl_polls s) = started tr;
  ti_fin : ∀ i, tl_polls s !! i = Some PFinished ↔ i ∈ takes tr;
  ti_ans : ∀ i, (∃ r, (i, r) ∈ answers tr) ↔ (∃ r, tl_polls s !! i = Some (PSending r)) ∨ i ∈ takes tr;
  ti_send : ∀ i r, tl_polls s !! i = Some (PSending r) → (i, r) ∈ answers tr;
  ti_nodup : NoDup (map fst (answers tr)) }.
Lemma answers_snoc {A} (tr : list (tlev A)) e :
  answers (tr ++ [e]) = answers tr ++ match e with LAnswer i r => [(i, r)] | _ => [] end.
Proof. unfold answers. rewrite omap_app. by destruct e. Qed.
Lemma takes_snoc {A} (tr : list (tlev A)) e : takes (tr ++ [e]) = takes tr ++ match e with LTake i _ => [i] | _ => [] end.
Proof. unfold takes. rewrite omap_app. by destruct e. Qed.
Lemma started_snoc {A} (tr : list (tlev A)) e : started (tr ++ [e]) = (started tr + match e with LTick => 1 | _ => 0 end)%nat.
Proof. unfold started. rewrite omap_app, app_length. destruct e; cbn; lia. Qed.
Lemma newest_snoc {A} (tr : list (tlev A)) e :
  newest_page (tr ++ [e]) = match e with LAnswer _ (inl a) => Some a | _ => newest_page tr end.
Proof.
  unfold newest_page. rewrite answers_snoc, omap_app. destruct e as [|i [a|x]|i now]; cbn; rewrite ?app_nil_r; try done.
  by rewrite last_snoc.
Qed.

Lemma tinv_run {A} (tr : list (tlev A)) : ∀ s, tl_run tloop0 tr = Some s → tinv tr s.
Proof.
  induction tr as [|e tr IH] using rev_ind; intros s H.
  - injection H as <-. split; try done.
    + intros [|i]; cbn; split; intros H; try done; by apply elem_of_nil in H.
    + intros i. cbn. split.
      * intros [r H]. by apply elem_of_nil in H.
      * intros [[r H]|H]; [|by apply elem_of_nil in H]. by destruct i.
    + intros [|i] r; cbn; done.
    + constructor.
  - apply tl_run_snoc in H as (m & Hm & Hs). specialize (IH m Hm). destruct IH as [H1 H2 H3 H4 H5].
    assert (Hlt : ∀ i p, tl_polls m !! i = Some p → (i < length (tl_polls m))%nat) by (intros; by eapply lookup_lt_Some).
    destruct e as [|i r|i now]; cbn in Hs.
    + injection Hs as <-. split; cbn [tl_polls].
      * rewrite app_length, started_snoc. change (length [@PWaiting A]) with 1%nat. lia.
      * intros j. rewrite takes_snoc, app_nil_r, <- H2. rewrite lookup_app_Some. split; [|by left].
        intros [?|[_ Hj]]; [done|]. apply elem_of_list_lookup_2, elem_of_list_singleton in Hj. done.
      * intros j. rewrite takes_snoc, answers_snoc, !app_nil_r, H3. split; (intros [[r Hr]|Hr]; [left|by right]); exists r.
        -- by apply lookup_app_l_Some.
        -- apply lookup_app_Some in Hr as [?|[_ Hj]]; [done|]. apply elem_of_list_lookup_2, elem_of_list_singleton in Hj. done.
      * intros j r Hr. rewrite answers_snoc, app_nil_r. apply H4. apply lookup_app_Some in Hr as [?|[_ Hj]]; [done|].
        apply elem_of_list_lookup_2, elem_of_list_singleton in Hj. done.
      * by rewrite answers_snoc, app_nil_r.
    + destruct (tl_polls m !! i) as [[|r'|]|] eqn:Hi; try done. injection Hs as <-. specialize (Hlt _ _ Hi). split; cbn [tl_polls].
      * rewrite insert_length, started_snoc. lia.
      * intros j. rewrite takes_snoc, app_nil_r, <- H2. destruct (decide (i = j)) as [<-|Hne].
        -- rewrite list_lookup_insert, Hi by done. by split.
        -- by rewrite list_lookup_insert_ne.
      * intros j. rewrite takes_snoc, answers_snoc, app_nil_r. setoid_rewrite elem_of_app. setoid_rewrite elem_of_list_singleton.
        destruct (decide (i = j)) as [<-|Hne].
        -- split; [|intros _; exists r; by right]. intros _. left. exists r. by rewrite list_lookup_insert.
        -- rewrite list_lookup_insert_ne, <- H3 by done. split; [|intros [x Hx]; exists x; by left].
           intros [x [Hx|Hx]]; [by exists x|]. congruence.
      * intros j x Hx. rewrite answers_snoc. apply elem_of_app. destruct (decide (i = j)) as [<-|Hne].
        -- rewrite list_lookup_insert in Hx by done. injection Hx as ->. right. by apply elem_of_list_singleton.
        -- left. apply H4. by rewrite list_lookup_insert_ne in Hx.
      * rewrite answers_snoc, map_app. cbn. apply NoDup_app. split; [done|]. split; [|apply NoDup_singleton].
        intros j Hj Hj'. apply elem_of_list_singleton in Hj' as ->. apply elem_of_list_fmap in Hj as ([j x] & -> & Hx).
        destruct (proj1 (H3 j)) as [[y Hy]|Hy]; [by exists x| |].
        -- cbn in Hi. congruence.
        -- apply H2 in Hy. cbn in Hi. congruence.
    + destruct (tl_polls m !! i) as [[|r|]|] eqn:Hi; try done. injection Hs as <-. specialize (Hlt _ _ Hi). split; cbn [tl_polls].
      * rewrite insert_length, started_snoc. lia.
      * intros j. rewrite takes_snoc, elem_of_app, elem_of_list_singleton, <- H2. destruct (decide (i = j)) as [<-|Hne].
        -- rewrite list_lookup_insert by done. split; [by right|done].
        -- rewrite list_lookup_insert_ne by done. split; [by left|]. intros [?|?]; [done|congruence].
      * intros j. rewrite takes_snoc, answers_snoc, app_nil_r, elem_of_app, elem_of_list_singleton, H3.
        destruct (decide (i = j)) as [<-|Hne].
        -- split; [intros _; right; by right|]. intros _. left. by exists r.
        -- rewrite list_lookup_insert_ne by done. split; [intros [?|?]; [by left|right; by left]|].
           intros [?|[?|?]]; [by left|by right|congruence].
      * intros j x Hx. rewrite answers_snoc, app_nil_r. destruct (decide (i = j)) as [<-|Hne].
        -- rewrite list_lookup_insert in Hx by done. done.
        -- apply H4. by rewrite list_lookup_insert_ne in Hx.
      * by rewrite answers_snoc, app_nil_r.
Qed.

Lemma one_prefix {A} (tr : list (tlev A)) e : one_at_a_time (tr ++ [e]) → one_at_a_time tr ∧ (e = LTick → all_over tr).
Proof.
  intros H. split.
  - intros tr1 tr2 ->. apply (H tr1 (tr2 ++ [e])). by rewrite <- app_assoc.
  - intros ->. by apply (H tr []).
Qed.

(** with one poll at a time, all but the last one are over *)
Lemma one_over {A} (tr : list (tlev A)) s : tl_run tloop0 tr = Some s → one_at_a_time tr →
  ∀ i, (S i < started tr)%nat → i ∈ takes tr.
Proof.
  revert s. induction tr as [|e tr IH] using rev_ind; intros s Hr Ho i Hi; [unfold started in Hi; cbn in Hi; lia|].
  apply one_prefix in Ho as [Ho He]. apply tl_run_snoc in Hr as (m & Hm & _). rewrite started_snoc in Hi.
  rewrite takes_snoc. apply elem_of_app. left. destruct e; [apply He; [done|lia]| |]; eapply IH; try done; lia.
Qed.
(** the last page of some answers *)
Definition pages_of {A} (l : list (nat * (A + string))) : option A :=
  last (omap (λ x : nat * (A + string), match x.2 with inl a => Some a | inr _ => None end) l).

(** the answers are those taken, and at most one more *)
Lemma one_answers {A} (tr : list (tlev A)) s : tl_run tloop0 tr = Some s → one_at_a_time tr →
  ∃ dn rest, answers tr = dn ++ rest ∧ map fst dn = takes tr ∧ (length rest ≤ 1)%nat ∧ tp_last (tl_top s) = pages_of dn.
Proof.
  revert s. induction tr as [|e tr IH] using rev_ind; intros s Hr Ho.
  { injection Hr as <-. exists [], []. split; [done|]. split; [done|]. split; [cbn; lia|done]. }
  apply one_prefix in Ho as [Ho He]. apply tl_run_snoc in Hr as (m & Hm & Hs). pose proof (tinv_run _ _ Hm) as [I1 I2 I3 I4 I5].
  destruct (IH m Hm Ho) as (dn & rest & E & Ed & Hl & Hp).
  destruct e as [|i r|i now]; cbn in Hs.
  - injection Hs as <-. exists dn, rest. rewrite answers_snoc, takes_snoc, !app_nil_r. done.
  - destruct (tl_polls m !! i) as [[|r'|]|] eqn:Hi; try done. injection Hs as <-. cbn [tl_top].
    destruct rest as [|[j x] [|? ?]]; [| |cbn in Hl; lia].
    + exists dn, [(i, r)]. rewrite answers_snoc, takes_snoc, E, !app_nil_r. split; [done|]. split; [done|]. split; [cbn; lia|done].
    + exfalso. assert (Hj : j ∉ takes tr).
      { rewrite <- Ed. intros Hj. rewrite E, map_app in I5. apply NoDup_app in I5 as (_ & H & _). apply (H j Hj). by left. }
      assert (Hni : i ∉ takes tr) by (intros H; apply I2 in H; congruence).
      destruct (proj1 (I3 j)) as [[y Hy]|Hy]; [exists x; rewrite E; apply elem_of_app; right; by left| |done].
      apply lookup_lt_Some in Hi as Li. apply lookup_lt_Some in Hy as Lj. rewrite I1 in Li, Lj.
      assert (¬ (S i < started tr)%nat) by (intros H; apply Hni; by eapply one_over).
      assert (¬ (S j < started tr)%nat) by (intros H'; apply Hj; by eapply one_over).
      assert (i = j) as -> by lia. congruence.
  - destruct (tl_polls m !! i) as [[|r|]|] eqn:Hi; try done. injection Hs as <-. cbn [tl_top].
    assert (Hni : i ∉ takes tr) by (intros H; apply I2 in H; congruence).
    pose proof (I4 _ _ Hi) as Ha. rewrite E in Ha. apply elem_of_app in Ha as [Ha|Ha].
    { exfalso. apply Hni. rewrite <- Ed. apply elem_of_list_fmap. by exists (i, r). }
    destruct rest as [|a [|? ?]]; [by apply elem_of_nil in Ha| |cbn in Hl; lia].
    apply elem_of_list_singleton in Ha as <-. exists (dn ++ [(i, r)]), [].
    rewrite answers_snoc, takes_snoc, E, !app_nil_r, map_app, Ed. split; [done|]. split; [done|]. split; [cbn; lia|].
    unfold pages_of. rewrite omap_app. destruct r as [a|x]; cbn.
    + by rewrite last_snoc.
    + by rewrite app_nil_r.
Qed.

(** the polls are received from in the order in which healthd answered *)
Lemma one_in_order {A} (tr : list (tlev A)) s : tl_run tloop0 tr = Some s → one_at_a_time tr →
  takes tr `prefix_of` map fst (answers tr).
Proof.
  intros Hr Ho. destruct (one_answers tr s Hr Ho) as (dn & rest & -> & <- & _). rewrite map_app. by eexists.
Qed.
(** when all are over, the last page is shown *)
Lemma one_newest {A} (tr : list (tlev A)) s : tl_run tloop0 tr = Some s → one_at_a_time tr → all_over tr →
  tp_last (tl_top s) = newest_page tr.
Proof.
  intros Hr Ho Hall. destruct (one_answers tr s Hr Ho) as (dn & rest & E & Ed & Hl & ->). unfold newest_page. rewrite E.
  destruct rest as [|[j x] rest]; [by rewrite app_nil_r|]. exfalso. pose proof (tinv_run _ _ Hr) as [I1 I2 I3 I4 I5].
  assert (Hj : j ∉ takes tr).
  { rewrite <- Ed. intros Hj. rewrite E, map_app in I5. apply NoDup_app in I5 as (_ & H & _). apply (H j Hj). by left. }
  apply Hj, Hall. destruct (proj1 (I3 j)) as [[y Hy]|Hy]; [exists x; rewrite E; apply elem_of_app; right; by left| |done].
  apply lookup_lt_Some in Hy. lia.
Qed.
(** and there is never more than one poll that is not over *)
Lemma one_outstanding {A} (tr : list (tlev A)) s : tl_run tloop0 tr = Some s → one_at_a_time tr →
  ∀ i j, (i < started tr)%nat → (j < started tr)%nat → i ∉ takes tr → j ∉ takes tr → i = j.
Proof.
  intros Hr Ho i j Li Lj Hi Hj.
  assert (¬ (S i < started tr)%nat) by (intros H; apply Hi; by eapply one_over).
  assert (¬ (S j < started tr)%nat) by (intros H'; apply Hj; by eapply one_over). lia.
Qed.

(** without that, they pile up *)
Lemma ticks_run {A} n (s : tloop A) : tl_run s (replicate n LTick) = Some (TLoop (tl_polls s ++ replicate n PWaiting) (tl_top s)).
Proof.
  revert s. induction n as [|n IH]; intros s; cbn; [rewrite app_nil_r; by destruct s|].
  rewrite IH. cbn. by rewrite <- app_assoc.
Qed.
Lemma ticks_started {A} n : started (replicate n (@LTick A)) = S n ∧ takes (replicate n (@LTick A)) = [].
Proof. unfold started, takes. induction n as [|n [IH1 IH2]]; cbn; [done|]. cbn in IH1, IH2. split; [lia|done]. Qed.

(** ** Two polls that overlap *)
Definition z_overlap : list (tlev string) :=
  [LTick; LAnswer 0%nat (inl "older"); LAnswer 1%nat (inl "newer"); LTake 1%nat 10; LTake 0%nat 20].
Lemma z_overlap_run : ∃ s, tl_run tloop0 z_overlap = Some s ∧ all_over z_overlap ∧
  newest_page z_overlap = Some "newer" ∧ tp_last (tl_top s) = Some "older" ∧
  fmt_status dec_int (tp_status (tl_top s)) = "[success]".
Proof.
  eexists. split; [vm_compute; reflexivity|]. split; [|by vm_compute].
  intros i Hi. change (started z_overlap) with 2%nat in Hi. change (takes z_overlap) with [1%nat; 0%nat].
  destruct i as [|[|i]]; [by right; left|by left|lia].
Qed.
Definition z_single : list (tlev string) :=
  [LAnswer 0%nat (inl "older"); LTake 0%nat 10; LTick; LAnswer 1%nat (inr "refused"); LTake 1%nat 20; LTick;
   LAnswer 2%nat (inl "newer"); LTake 2%nat 30].
Lemma z_single_run : ∃ s, tl_run tloop0 z_single = Some s ∧ tp_last (tl_top s) = Some "newer".
Proof. eexists. by vm_compute. Qed.
Lemma z_single_over : all_over z_single.
Proof.
  intros i Hi. change (started z_single) with 3%nat in Hi. change (takes z_single) with [0%nat; 1%nat; 2%nat].
  destruct i as [|[|[|i]]]; [by left|by right; left|by right; right; left|lia].
Qed.
Lemma z_single_one : one_at_a_time z_single.
Proof.
  intros tr1 tr2 E. assert (Hk : z_single !! length tr1 = Some LTick) by (rewrite E; by apply list_lookup_middle).
  assert (Ht : tr1 = take (length tr1) z_single) by (by rewrite E, take_app). rewrite Ht.
  remember (length tr1) as k eqn:Ek. clear E Ht Ek. destruct k as [|[|[|[|[|[|[|[|k]]]]]]]]; try discriminate Hk.
  - intros i Hi. change (started _) with 1%nat in Hi. assert (i = 0%nat) as -> by lia. by left.
  - intros i Hi. change (started _) with 2%nat in Hi. destruct i as [|[|i]]; [by left|by right; left|lia].
Qed.
Lemma thm_pile_up : ∀ n, ∃ tr : list (tlev string), ∃ s, tl_run tloop0 tr = Some s ∧ ∀ i, (i < n)%nat → (i < started tr)%nat ∧ i ∉ takes tr.
Proof.
  intros n. exists (replicate n LTick). eexists. split; [apply ticks_run|]. destruct (@ticks_started string n) as [-> ->].
  intros i Hi. split; [lia|]. apply not_elem_of_nil.
Qed.
Lemma takes_nodup {A} (tr : list (tlev A)) s : tl_run tloop0 tr = Some s → NoDup (takes tr).
Proof.
  revert s. induction tr as [|e tr IH] using rev_ind; intros s Hr; [constructor|].
  apply tl_run_snoc in Hr as (m & Hm & Hs). specialize (IH m Hm). rewrite takes_snoc.
  destruct e as [|i r|i now]; rewrite ?app_nil_r; try done. cbn in Hs.
  destruct (tl_polls m !! i) as [[|r|]|] eqn:Hi; try done.
  apply NoDup_app. split; [done|]. split; [|apply NoDup_singleton].
  intros j Hj Hj'. apply elem_of_list_singleton in Hj' as ->. apply (ti_fin _ _ (tinv_run _ _ Hm)) in Hj. congruence.
Qed.
Lemma thm_answer_once {A} (tr : list (tlev A)) s : tl_run tloop0 tr = Some s →
  NoDup (takes tr) ∧ NoDup (map fst (answers tr)) ∧ ∀ i, i ∈ takes tr → i ∈ map fst (answers tr) ∧ (i < started tr)%nat.
Proof.
  intros Hr. pose proof (tinv_run _ _ Hr) as [I1 I2 I3 I4 I5]. split; [by eapply takes_nodup|]. split; [done|].
  intros i Hi. split.
  - destruct (proj2 (I3 i)) as [r H]; [by right|]. apply elem_of_list_fmap. by exists (i, r).
  - apply I2, lookup_lt_Some in Hi. lia.
Qed.

(** ** The status line *)
Lemma tl_run_app {A} (s : tloop A) tr1 tr2 : tl_run s (tr1 ++ tr2) = m ← tl_run s tr1; tl_run m tr2.
Proof. revert s. induction tr1 as [|e tr IH]; intros s; [done|]. cbn. destruct (tl_step s e); [apply IH|done]. Qed.
Lemma tl_events {A} (tr : list (tlev A)) : ∀ s s', tl_run s tr = Some s' →
  ∃ l, tl_top s' = fold_left top_step l (tl_top s) ∧ map ev_time l = take_times tr.
Proof.
  induction tr as [|e tr IH]; intros s s' H; cbn in H.
  - injection H as <-. by exists [].
  - destruct (tl_step s e) as [m|] eqn:Em; [|done]. cbn in H. destruct (IH _ _ H) as (l & H1 & H2).
    destruct e as [|i r|i now]; cbn in Em.
    + injection Em as <-. by exists l.
    + destruct (tl_polls s !! i) as [[|r'|]|]; try done. injection Em as <-. by exists l.
    + destruct (tl_polls s !! i) as [[|r|]|]; try done. injection Em as <-.
      exists ((match r with inl a => TResponse a now | inr x => TError x now end) :: l). split; [exact H1|].
      cbn. rewrite H2. by destruct r.
Qed.
Lemma ticking_of {A} (l : list (tev A)) : Forall (λ t, 0 < t) (map ev_time l) → StronglySorted Z.lt (map ev_time l) → ticking l.
Proof.
  intros H1 H2. split.
  - by rewrite Forall_fmap in H1.
  - induction l as [|e l IH]; [constructor|]. cbn in H1, H2. apply Forall_cons in H1 as [_ H1].
    apply StronglySorted_inv in H2 as [H2 H3]. constructor; [by apply IH|]. by rewrite Forall_fmap in H3.
Qed.
Lemma thm_loop_status {A} (fmt : Z → string) (tr : list (tlev A)) s : tl_run tloop0 tr = Some s → clocked tr →
  (takes tr = [] → fmt_status fmt (tp_status (tl_top s)) = "[starting...]") ∧
  ∀ tr1 tr2 i now, tr = tr1 ++ LTake i now :: tr2 → takes tr2 = [] →
    (∀ a, (i, inl a) ∈ answers tr1 → fmt_status fmt (tp_status (tl_top s)) = "[success]" ∧ tp_last (tl_top s) = Some a) ∧
    (∀ x, (i, inr x) ∈ answers tr1 →
       fmt_status fmt (tp_status (tl_top s)) = "[error: '" +:+ x +:+ "'    LastErrorAt: " +:+ fmt now +:+ "]").
Proof.
  intros Hr [Hc1 Hc2]. assert (Hno : ∀ tr : list (tlev A), takes tr = [] → take_times tr = []).
  { clear. induction tr as [|[|i r|i now] tr IH]; cbn; try done. }
  split.
  - intros Ht. destruct (tl_events _ _ _ Hr) as (l & E & H). rewrite (Hno _ Ht) in H. destruct l; [|done]. by rewrite E.
  - intros tr1 tr2 i now -> Ht. rewrite tl_run_app in Hr. destruct (tl_run tloop0 tr1) as [m|] eqn:Em; [|done]. cbn in Hr.
    destruct (tl_polls m !! i) as [[|r|]|] eqn:Hi; try done. cbn in Hr.
    destruct (tl_events _ _ _ Hr) as (l2 & E2 & H2). rewrite (Hno _ Ht) in H2. destruct l2; [|done]. cbn in E2.
    destruct (tl_events _ _ _ Em) as (l1 & E1 & H1).
    set (e := match r with inl a => TResponse a now | inr x => TError x now end) in *.
    assert (Hl : tl_top s = top_run (l1 ++ [e])). { unfold top_run. rewrite fold_left_app, E2, E1. done. }
    assert (Hk : ticking (l1 ++ [e])).
    { assert (map ev_time (l1 ++ [e]) = take_times (tr1 ++ LTake i now :: tr2)) as Hm.
      { unfold take_times. rewrite map_app, omap_app, H1. f_equal. cbn. change (omap _ tr2) with (take_times tr2). rewrite (Hno _ Ht). f_equal. by destruct r. }
      apply ticking_of; by rewrite Hm. }
    pose proof (tinv_run _ _ Em) as [_ _ _ I4 I5].
    assert (Hu : ∀ r', (i, r') ∈ answers tr1 → r' = r).
    { intros r' H'. specialize (I4 _ _ Hi). apply elem_of_list_lookup in H' as [p Hp], I4 as [q Hq].
      assert (p = q) as ->. { eapply NoDup_lookup; [exact I5| |]; rewrite list_lookup_fmap; [rewrite Hp|rewrite Hq]; done. }
      congruence. }
    destruct (thm_status fmt _ Hk) as (_ & S1 & S2). rewrite Hl. split.
    + intros a Ha. apply Hu in Ha as <-. split; [by eapply S1|]. unfold top_run. by rewrite fold_left_app.
    + intros x Hx. apply Hu in Hx as <-. by eapply S2.
Qed.
