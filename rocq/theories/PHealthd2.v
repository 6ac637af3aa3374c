(** * Proofs about healthd's aggregation state, part 2: publication *)
From Verif Require Import SHealthd PHealthd PMerge PMerge2.

(** membership in explicit lists *)
Ltac inl := repeat first [rewrite elem_of_app in * | rewrite elem_of_cons in * | rewrite elem_of_list_singleton in *
  | rewrite elem_of_nil in *]; intuition (subst; eauto; try congruence).

Notation start p := (ia_start (pa_ia p)).
Definition le_start (p q : pagg) : Prop := start p ≤ start q.

Lemma truncate_len max l l' : truncate_pub max l = Ok l' → Z.of_nat (length l') ≤ max.
Proof.
  intros H. destruct (truncate_ok _ _ _ H) as (n & -> & Ha & Hb & Hc).
  destruct (decide (0 ≤ max)); [auto|]. rewrite drop_length. lia.
Qed.

Lemma replace_some l p l' : replace_pub l p = Some l' →
  ∃ a q b, l = a ++ q :: b ∧ l' = a ++ p :: b ∧ pa_time q = pa_time p ∧ pa_time p ∉ map pa_time a.
Proof.
  revert l'. induction l as [|q l IH]; intros l' H; cbn in H; [done|].
  case_bool_decide as E.
  - injection H as <-. exists [], q, l. repeat split; try done. apply not_elem_of_nil.
  - destruct (replace_pub l p) as [l2|] eqn:E2; cbn in H; [|done]. injection H as <-.
    destruct (IH _ eq_refl) as (a & x & b & -> & -> & Hx & Ha).
    exists (q :: a), x, b. repeat split; try done. cbn. apply not_elem_of_cons. split; [congruence|done].
Qed.
Lemma replace_none l p : replace_pub l p = None → pa_time p ∉ map pa_time l.
Proof.
  induction l as [|q l IH]; cbn; intros H; [apply not_elem_of_nil|]. case_bool_decide as E; [done|].
  destruct (replace_pub l p); cbn in H; [done|]. apply not_elem_of_cons. split; [congruence|auto].
Qed.
Lemma replace_found l p : pa_time p ∈ map pa_time l → ∃ l', replace_pub l p = Some l'.
Proof. destruct (replace_pub l p) eqn:E; [eauto|]. intros H. by apply replace_none in E. Qed.

Record pubinv (max : Z) (l : list pagg) : Prop := {
  pv_nodup : NoDup (map pa_time l);
  pv_sorted : StronglySorted le_start l;
  pv_len : Z.of_nat (length l) ≤ max }.

Lemma ss_drop {A} (R : A → A → Prop) n l : StronglySorted R l → StronglySorted R (drop n l).
Proof.
  revert n. induction l as [|x l IH]; intros n H; destruct n; cbn; try done.
  inversion H; subst. by apply IH.
Qed.
Lemma nodup_drop {A} n (l : list A) : NoDup l → NoDup (drop n l).
Proof. intros H. rewrite <- (take_drop n l) in H. by apply NoDup_app in H as (_ & _ & ?). Qed.
Lemma ss_replace a q b p : start q = start p → StronglySorted le_start (a ++ q :: b) → StronglySorted le_start (a ++ p :: b).
Proof.
  intros E. induction a as [|x a IH]; cbn; intros H.
  - inversion H as [|? ? H1 H2]; subst. constructor; [done|]. eapply Forall_impl; [exact H2|]. unfold le_start. intros. lia.
  - inversion H as [|? ? H1 H2]; subst. constructor; [by apply IH|].
    rewrite Forall_app, Forall_cons in H2 |- *. destruct H2 as (? & Hq & ?). repeat split; try done.
    unfold le_start in *. lia.
Qed.

Lemma time_start p q : pa_time p = pa_time q → start p = start q.
Proof. unfold pa_time. intros E. by injection E. Qed.

Lemma drop_split_sorted n (l : list pagg) x : StronglySorted le_start l → x ∈ l →
  x ∈ drop n l ∨ ∀ y, y ∈ drop n l → start x ≤ start y.
Proof.
  revert n. induction l as [|z l IH]; intros n Hs Hx; [set_solver|].
  destruct n as [|n]; [auto|]. cbn. inversion Hs as [|? ? H1 H2]; subst.
  apply elem_of_cons in Hx as [->|Hx].
  - right. intros y Hy. rewrite Forall_forall in H2. apply H2.
    rewrite <- (take_drop n l). apply elem_of_app. auto.
  - auto.
Qed.

Section setagg.
  Context (srt : list pagg → list pagg) (Hsrt : is_sorter srt) (max : Z).

  Lemma set_inv pub p pub' : pubinv max pub → set_aggregation srt max pub p = Ok pub' → pubinv max pub'.
  Proof.
    intros [H1 H2 H3] H. unfold set_aggregation in H. destruct (replace_pub pub p) as [l|] eqn:E.
    - injection H as <-. apply replace_some in E as (a & q & b & -> & -> & Hq & Ha). split.
      + rewrite map_app in *. cbn in *. by rewrite <- Hq.
      + eapply ss_replace; [|exact H2]. by apply time_start.
      + rewrite app_length in *. cbn in *. lia.
    - assert (Hlen := truncate_len _ _ _ H).
      destruct (truncate_ok _ _ _ H) as (n & -> & _). destruct (Hsrt (pub ++ [p])) as [Hp Hss]. split.
      + rewrite <- (take_drop n (srt (pub ++ [p]))) in Hp.
        assert (NoDup (map pa_time (srt (pub ++ [p])))) as Hnd.
        { destruct (Hsrt (pub ++ [p])) as [Hp' _]. rewrite Hp', map_app. cbn. apply NoDup_app. split; [done|]. split.
          - intros x Hx Hy. apply elem_of_list_singleton in Hy as ->. by apply replace_none in E.
          - apply NoDup_singleton. }
        change (map pa_time (drop n (srt (pub ++ [p])))) with (pa_time <$> drop n (srt (pub ++ [p]))).
        rewrite fmap_drop. by apply nodup_drop.
      + by apply ss_drop.
      + done.
  Qed.

  Lemma set_mem pub p pub' x : NoDup (map pa_time pub) → set_aggregation srt max pub p = Ok pub' → x ∈ pub' →
    x = p ∨ (x ∈ pub ∧ pa_time x ≠ pa_time p).
  Proof.
    intros Hnd H Hx. unfold set_aggregation in H. destruct (replace_pub pub p) as [l|] eqn:E.
    - injection H as <-. apply replace_some in E as (a & q & b & -> & -> & Hq & Ha).
      rewrite map_app in Hnd. cbn in Hnd. apply NoDup_app in Hnd as (_ & _ & Hnd). apply NoDup_cons in Hnd as [Hnq _].
      apply elem_of_app in Hx as [Hx|Hx]; [|apply elem_of_cons in Hx as [->|Hx]]; [right|auto|right].
      + split; [inl|]. intros Hc. apply Ha. rewrite <- Hc. apply elem_of_list_fmap. eauto.
      + split; [inl|]. rewrite <- Hq. intros Hc. apply Hnq. rewrite <- Hc. apply elem_of_list_fmap. eauto.
    - destruct (truncate_ok _ _ _ H) as (n & -> & _). destruct (Hsrt (pub ++ [p])) as [Hp Hss].
      assert (x ∈ pub ++ [p]) as Hm.
      { rewrite <- Hp, <- (take_drop n (srt (pub ++ [p]))). apply elem_of_app. auto. }
      apply elem_of_app in Hm as [Hm|Hm]; [right|left; by apply elem_of_list_singleton in Hm].
      split; [done|]. apply replace_none in E. intros Hc. apply E. rewrite <- Hc. apply elem_of_list_fmap. eauto.
  Qed.

  (** [k] is published, or squeezed out by [max] entries that are not older *)
  Definition cover (pub : list pagg) (k : gotime) : Prop :=
    (∃ q, q ∈ pub ∧ pa_time q = k) ∨ (Z.of_nat (length pub) = max ∧ ∀ q, q ∈ pub → k.1 ≤ start q).

  Lemma set_cover_new pub p pub' : pubinv max pub → set_aggregation srt max pub p = Ok pub' → cover pub' (pa_time p).
  Proof.
    intros [H1 H2 H3] H. unfold set_aggregation in H. destruct (replace_pub pub p) as [l|] eqn:E.
    - injection H as <-. apply replace_some in E as (a & q & b & -> & -> & Hq & Ha). left. exists p. inl.
    - destruct (truncate_ok _ _ _ H) as (n & -> & Hl1 & Hl2 & Hl3). destruct (Hsrt (pub ++ [p])) as [Hp Hss].
      assert (p ∈ srt (pub ++ [p])) as Hin by (rewrite Hp; inl).
      destruct (drop_split_sorted n _ p Hss Hin) as [Hd|Hd]; [left; eauto|].
      destruct (decide (max < Z.of_nat (length (srt (pub ++ [p]))))) as [Hm|Hm].
      + right. split; [|done]. rewrite drop_length. lia.
      + left. exists p. rewrite Hl2 by lia. done.
  Qed.
  Lemma set_cover_old pub p pub' k : pubinv max pub → set_aggregation srt max pub p = Ok pub' → cover pub k → cover pub' k.
  Proof.
    intros [H1 H2 H3] H Hc. unfold set_aggregation in H. destruct (replace_pub pub p) as [l|] eqn:E.
    - injection H as <-. apply replace_some in E as (a & q & b & -> & -> & Hq & Ha). destruct Hc as [(x & Hx & <-)|[Hl Hx]].
      + left. apply elem_of_app in Hx as [Hx|Hx]; [|apply elem_of_cons in Hx as [->|Hx]].
        * exists x. inl.
        * exists p. inl.
        * exists x. inl.
      + right. split; [rewrite app_length in *; cbn in *; lia|]. intros y Hy.
        apply elem_of_app in Hy as [Hy|Hy]; [|apply elem_of_cons in Hy as [->|Hy]]; [apply Hx; inl| |apply Hx; inl].
        rewrite <- (time_start _ _ Hq). apply Hx. inl.
    - destruct (truncate_ok _ _ _ H) as (n & -> & Hl1 & Hl2 & Hl3). destruct (Hsrt (pub ++ [p])) as [Hp Hss].
      assert (length (srt (pub ++ [p])) = S (length pub)) as Hlen.
      { rewrite Hp, app_length. cbn. lia. }
      destruct Hc as [(x & Hx & <-)|[Hl Hx]].
      + assert (x ∈ srt (pub ++ [p])) as Hin by (rewrite Hp; inl).
        destruct (drop_split_sorted n _ x Hss Hin) as [Hd|Hd]; [left; eauto|].
        destruct (decide (max < Z.of_nat (length (srt (pub ++ [p]))))) as [Hm|Hm].
        * right. split; [|done]. rewrite drop_length. lia.
        * left. exists x. rewrite Hl2 by lia. done.
      + right. destruct Hl3 as [Hn Hmx]; [lia|]. split; [rewrite drop_length; lia|].
        assert (n = 1%nat) as -> by lia.
        destruct (srt (pub ++ [p])) as [|y l] eqn:Es; [done|]. cbn [drop]. rewrite skipn_O. intros q Hq.
        assert (y ∈ pub ++ [p]) as Hy by (rewrite <- Hp; left).
        assert (q ∈ pub ++ [p]) as Hq' by (rewrite <- Hp; by right).
        inversion Hss as [|? ? _ Hall]; subst. rewrite Forall_forall in Hall. specialize (Hall q Hq).
        apply elem_of_app in Hq' as [Hq'|Hq']; [by apply Hx|]. apply elem_of_list_singleton in Hq' as ->.
        apply elem_of_app in Hy as [Hy|Hy].
        * specialize (Hx _ Hy). lia.
        * (* both are [p]: then p occurs twice in pub ++ [p], so p is in pub *)
          apply elem_of_list_singleton in Hy as ->.
          assert (p ∈ pub) as Hpp.
          { rewrite Permutation_app_comm in Hp. cbn in Hp. apply Permutation_cons_inv in Hp. by rewrite <- Hp. }
          by apply Hx.
  Qed.
End setagg.

(** ** Recalculation *)
Definition at_time (k : gotime) (m : list (hkey * dagg)) : list (hkey * dagg) :=
  filter (λ kd : hkey * dagg, key_time kd.1 = k) m.

Lemma merge_all_start s l : ia_start (merge_all s l) = s.
Proof.
  unfold merge_all. assert (∀ i, ia_start (fold_left ia_merge l i) = ia_start i) as H; [|by rewrite H].
  induction l as [|x l IH]; intros i; cbn; [done|]. by rewrite IH.
Qed.
Lemma merge_entries_ok k l p : merge_entries k l = Ok p →
  pa_time p = k ∧ pa_ia p = merge_all k.1 (map d_ia l) ∧ existsb d_null l = false.
Proof.
  unfold merge_entries. destruct existsb; [done|]. intros [= <-]. split; [|done].
  unfold pa_time. cbn. rewrite merge_all_start. by destruct k.
Qed.

Lemma recalc_loop_spec o max ks : ∀ pub pub', is_sorter (ro_sort o) → pubinv max pub → NoDup ks →
  recalc_loop o max ks pub = Ok pub' →
  pubinv max pub' ∧
  (∀ p, p ∈ pub' → (pa_time p ∈ ks ∧ merge_entries (pa_time p) (map snd (at_time (pa_time p) (ro_entries o (pa_time p)))) = Ok p) ∨
                   (p ∈ pub ∧ pa_time p ∉ ks)) ∧
  (∀ k, k ∈ ks → cover max pub' k) ∧ (∀ k, cover max pub k → cover max pub' k).
Proof.
  induction ks as [|k ks IH]; intros pub pub' Hs Hi Hn H.
  - cbn in H. injection H as <-. split; [done|]. split; [intros p Hp; right; split; [done|set_solver]|].
    split; [set_solver|auto].
  - cbn in H. fold (at_time k (ro_entries o k)) in H.
    destruct (merge_entries k _) as [p|w] eqn:Em; cbn in H; [|done].
    destruct set_aggregation as [pub1|w] eqn:Es; cbn in H; [|done].
    apply NoDup_cons in Hn as [Hnk Hn].
    destruct (merge_entries_ok _ _ _ Em) as (Et & _).
    assert (Hi1 := set_inv _ Hs _ _ _ _ Hi Es).
    destruct (IH pub1 pub' Hs Hi1 Hn H) as (J1 & J2 & J3 & J4).
    split; [done|]. split.
    + intros x Hx. destruct (J2 x Hx) as [[Hk Hm]|[Hin Hk]].
      * left. split; [by right|done].
      * destruct Hi as [Hnd _ _]. destruct (set_mem _ Hs _ _ _ _ x Hnd Es Hin) as [->|[Hp Ht]].
        -- left. rewrite Et. split; [left|done].
        -- right. split; [done|]. rewrite Et in Ht. set_solver.
    + split.
      * intros k' Hk'. apply elem_of_cons in Hk' as [->|Hk']; [|auto]. apply J4. rewrite <- Et. by apply (set_cover_new _ Hs _ pub).
      * intros k' Hk'. apply J4. by apply (set_cover_old _ Hs _ pub p).
Qed.

(** the published sequence stays sorted, with distinct times, and bounded *)
Lemma pub_step s op s' : pubinv (hd_max s) (hd_pub s) → hop_ok s op → hstep s op = Ok s' →
  (hd_dur s = 0 → hd_pub s = []) → (0 ≤ hd_max s') → pubinv (hd_max s') (hd_pub s').
Proof.
  intros Hi Ho H Hz Hm. destruct op as [r t1 t2|now|o]; cbn in H.
  - unfold consume in H. destruct resp_good; [|by injection H as <-].
    destruct (hd_dur s =? 0) eqn:E0.
    + apply Z.eqb_eq in E0. destruct (r_dur r =? 0); [done|]. destruct consume_aggs; cbn in H; [|done].
      injection H as <-. cbn in *. rewrite (Hz E0). split; [constructor|constructor|done].
    + destruct (hd_dur s =? r_dur r); [|by injection H as <-]. destruct consume_aggs; cbn in H; [|done].
      by injection H as <-.
  - apply purge_host in H as (_ & _ & _ & _ & -> & Ht). destruct Hi as [H1 H2 H3].
    assert (Hl := truncate_len _ _ _ Ht). destruct (truncate_ok _ _ _ Ht) as (n & E & _). rewrite E in *. split; [|by apply ss_drop|done].
    change (map pa_time (drop n (hd_pub s))) with (pa_time <$> drop n (hd_pub s)). rewrite fmap_drop. by apply nodup_drop.
  - apply recalc_host in H as (_ & _ & _ & _ & -> & Hr). destruct Ho as (Hk & _ & Hs).
    apply recalc_loop_spec in Hr as (? & _); try done. rewrite Hk. apply NoDup_elements.
Qed.

Lemma pub_reach hosts tr s : hrun (hd_init hosts) tr (Ok s) →
  (∀ d, conf_dur tr = Some d → 0 < d) → pubinv (hd_max s) (hd_pub s).
Proof.
  revert s. induction tr as [|op tr IH] using rev_ind; intros s H Hd.
  - inversion H; subst. split; [constructor|constructor|done].
  - assert (Hc' := conf_reach _ _ _ H). apply hrun_snoc in H as (m & H1 & H2 & H3).
    assert (Hc := conf_reach _ _ _ H1).
    assert (∀ d, conf_dur tr = Some d → 0 < d) as Hd'.
    { intros d E. apply Hd. by apply conf_app_some. }
    eapply pub_step; [by apply IH|done|done| |].
    + intros E. unfold conf_inv in Hc. destruct (conf_dur tr); [|by destruct Hc as (_ & _ & _ & _ & ?)].
      destruct Hc as (Hn & Hx & _). congruence.
    + unfold conf_inv in Hc'. destruct (conf_dur (tr ++ [op])) as [d|].
      * destruct Hc' as (_ & _ & ->). specialize (Hd d eq_refl). apply Z.quot_pos; [done|lia].
      * destruct Hc' as (_ & -> & _). done.
Qed.

(** without any hypothesis on durations: runs that do not crash *)
Lemma well_formed_prefix tr1 tr2 : well_formed (tr1 ++ tr2) → well_formed tr1.
Proof. intros H r t1 t2 Hr. apply (H r t1 t2). apply elem_of_app. auto. Qed.
Lemma conf_dur_elem tr d : conf_dur tr = Some d → ∃ r t1 t2, HResp r t1 t2 ∈ tr ∧ usable r ∧ r_dur r = d.
Proof.
  unfold conf_dur. intros H. destruct (omap good_of tr) as [|r l] eqn:E; cbn in H; [done|]. injection H as <-.
  assert (r ∈ omap good_of tr) as Hr by (rewrite E; left).
  apply elem_of_list_omap in Hr as (op & Hop & Hg). destruct op as [r' t1 t2| |]; cbn in Hg; try done.
  destruct (decide (usable r')); [|done]. injection Hg as ->. eauto 10.
Qed.
Lemma conf_pos tr d : well_formed tr → conf_dur tr = Some d → 0 < d.
Proof.
  intros Hw H. apply conf_dur_elem in H as (r & t1 & t2 & Hr & Hu & <-). by apply (Hw _ _ _ Hr).
Qed.

(** what is published after a recalculation *)
Lemma recalc_published hosts tr o s s' : hrun (hd_init hosts) tr (Ok s) →
  (∀ d, conf_dur tr = Some d → 0 < d) → rorder_ok s o → recalc s o = Ok s' →
  (∀ p, p ∈ hd_pub s' →
     (pa_time p ∈ hd_need s ∧ ∃ l, l ≡ₚ at_time (pa_time p) (map_to_list (hd_host s)) ∧
                                pa_ia p = merge_all (pa_time p).1 (map (d_ia ∘ snd) l)) ∨
     (p ∈ hd_pub s ∧ pa_time p ∉ hd_need s)) ∧
  (∀ k, k ∈ hd_need s → cover (hd_max s) (hd_pub s') k).
Proof.
  intros H Hd Ho Hr. assert (Hi := pub_reach _ _ _ H Hd).
  apply recalc_host in Hr as (_ & _ & _ & _ & _ & Hr). destruct Ho as (Hk & He & Hs).
  apply recalc_loop_spec in Hr as (_ & J2 & J3 & _); try done; [|rewrite Hk; apply NoDup_elements].
  assert (∀ k, k ∈ ro_keys o ↔ k ∈ hd_need s) as Hkk.
  { intros k. rewrite Hk. apply elem_of_elements. }
  split.
  - intros p Hp. destruct (J2 p Hp) as [[Hx Hm]|[Hx Hm]].
    + left. split; [by apply Hkk|]. apply merge_entries_ok in Hm as (_ & Hm & _). rewrite map_map in Hm.
      eexists. split; [|exact Hm]. unfold at_time. by rewrite He.
    + right. split; [done|]. by rewrite <- Hkk.
  - intros k Hx. apply J3. by apply Hkk.
Qed.

(** the entries of one time, as a list of keys and data *)
Lemma at_time_latest hosts tr s k l : hrun (hd_init hosts) tr (Ok s) → serials_honest tr →
  l ≡ₚ at_time k (map_to_list (hd_host s)) → latest_at tr k l.
Proof.
  intros H Hh Hl. split.
  - rewrite Hl. unfold at_time.
    assert (NoDup (map fst (map_to_list (hd_host s)))) as Hn by apply NoDup_fst_map_to_list.
    revert Hn. generalize (map_to_list (hd_host s)). intros m Hn. induction m as [|x m IH]; [constructor|].
    cbn in Hn. apply NoDup_cons in Hn as [Hx Hn]. rewrite filter_cons. destruct (decide _); [|auto].
    cbn. apply NoDup_cons. split; [|auto]. intros Hc. apply Hx.
    apply elem_of_list_fmap in Hc as (y & Hy & Hy2). apply elem_of_list_filter in Hy2 as [_ ?].
    apply elem_of_list_fmap. eauto.
  - intros key d. rewrite Hl. unfold at_time. rewrite elem_of_list_filter, elem_of_map_to_list.
    rewrite (stored_latest hosts tr s key d H Hh). tauto.
Qed.

Lemma published_latest hosts tr1 tr2 o s' key d p :
  hrun (hd_init hosts) ((tr1 ++ tr2) ++ [HRecalc o]) (Ok s') → serials_honest (tr1 ++ tr2) →
  (∀ x, conf_dur (tr1 ++ tr2) = Some x → 0 < x) →
  Forall (λ op, ¬ is_recalc op) tr2 → is_latest (tr1 ++ tr2) key d → ¬ is_latest tr1 key d →
  p ∈ hd_pub s' → pa_time p = key_time key →
  ∃ l, latest_at (tr1 ++ tr2) (key_time key) l ∧ pa_ia p = merge_all (key_time key).1 (map (d_ia ∘ snd) l).
Proof.
  intros H Hh Hd Hnr Hl Hnl Hp Hk. apply hrun_snoc in H as (m & H1 & H2 & H3). cbn in H3.
  assert (Hn := changed_pending _ _ _ _ _ _ H1 Hh Hnr Hl Hnl).
  destruct (recalc_published _ _ _ _ _ H1 Hd H2 H3) as [J1 _].
  destruct (J1 p Hp) as [(_ & l & Hl1 & Hl2)|[_ Hx]]; [|rewrite Hk in Hx; done].
  rewrite Hk in *. exists l. split; [|done]. by eapply at_time_latest.
Qed.

Lemma published_or_squeezed hosts tr1 tr2 o s' key d :
  hrun (hd_init hosts) ((tr1 ++ tr2) ++ [HRecalc o]) (Ok s') → serials_honest (tr1 ++ tr2) →
  (∀ x, conf_dur (tr1 ++ tr2) = Some x → 0 < x) →
  Forall (λ op, ¬ is_recalc op) tr2 → is_latest (tr1 ++ tr2) key d → ¬ is_latest tr1 key d →
  (∃ p, p ∈ hd_pub s' ∧ pa_time p = key_time key) ∨
  (∃ x, conf_dur (tr1 ++ tr2) = Some x ∧ Z.of_nat (length (hd_pub s')) = hd_retain `div` x ∧
     ∀ q, q ∈ hd_pub s' → (key_time key).1 ≤ ia_start (pa_ia q)).
Proof.
  intros H Hh Hd Hnr Hl Hnl. apply hrun_snoc in H as (m & H1 & H2 & H3). cbn in H3.
  assert (Hn := changed_pending _ _ _ _ _ _ H1 Hh Hnr Hl Hnl).
  destruct (recalc_published _ _ _ _ _ H1 Hd H2 H3) as [_ J2].
  destruct (J2 _ Hn) as [J|[J1 J3]]; [auto|]. right.
  assert (Hc := conf_reach _ _ _ H1). unfold conf_inv in Hc.
  destruct (conf_dur (tr1 ++ tr2)) as [x|].
  - exists x. split; [done|]. destruct Hc as (_ & _ & E). rewrite E in J1. split; [|done].
    rewrite J1. apply Z.quot_div_nonneg; [done|by apply Hd].
  - destruct Hc as (_ & _ & _ & E & _). rewrite E in Hn. set_solver.
Qed.

(** intervals without new data are left as they were *)
Lemma published_kept hosts tr1 o1 tr2 o s s' p :
  hrun (hd_init hosts) (tr1 ++ HRecalc o1 :: tr2) (Ok s) → hop_ok s (HRecalc o) → hstep s (HRecalc o) = Ok s' →
  (∀ x, conf_dur (tr1 ++ HRecalc o1 :: tr2) = Some x → 0 < x) →
  p ∈ hd_pub s' → (∀ key d, reported tr2 key d → key_time key ≠ pa_time p) → p ∈ hd_pub s.
Proof.
  intros H1 H2 H3 Hd Hp Hr. cbn in H3.
  destruct (recalc_published _ _ _ _ _ H1 Hd H2 H3) as [J1 _].
  destruct (J1 p Hp) as [[Hx _]|[? _]]; [|done].
  destruct (pending_reported _ _ _ _ _ _ H1 Hx) as (key & d & Ha & Hb). by apply Hr in Ha.
Qed.

(** ** Sorted, unique, bounded *)
Lemma need_reported hosts tr s t : hrun (hd_init hosts) tr (Ok s) → t ∈ hd_need s → ∃ key d, reported tr key d ∧ key_time key = t.
Proof.
  revert s. induction tr as [|op tr IH] using rev_ind; intros s H Ht.
  - inversion H; subst. set_solver.
  - apply hrun_snoc in H as (m & H1 & _ & H3).
    assert (t ∈ hd_need m → ∃ key d, reported (tr ++ [op]) key d ∧ key_time key = t) as Hold.
    { intros Hm. destruct (IH _ H1 Hm) as (key & d & ? & ?). exists key, d. split; [|done]. apply reported_snoc. auto. }
    destruct op as [r t1 t2|now|o']; cbn in H3.
    + apply (consume_cases tr) in H3 as (_ & _ & _ & [[Hct Ha]|(Hct & Hho & Hn)]); [| |by eapply conf_reach].
      * destruct (ca_need_from _ _ _ _ _ _ _ _ Ha Ht) as [|(d & Hd & <-)]; [auto|].
        exists (d_time d, r_inst r, r_hp r), d. split; [|done]. apply reported_snoc. right. exists r, t1, t2. split; [done|]. split; [apply Hct|].
        rewrite reports_at_rl. apply elem_of_list_omap. exists (Some d). split; [done|]. by rewrite decide_True.
      * rewrite Hn in Ht. auto.
    + apply purge_host in H3 as (_ & Hn & _). rewrite Hn in Ht. auto.
    + apply recalc_host in H3 as (_ & Hn & _). rewrite Hn in Ht. set_solver.
Qed.

Lemma pub_reported hosts tr s p : hrun (hd_init hosts) tr (Ok s) → (∀ x, conf_dur tr = Some x → 0 < x) →
  p ∈ hd_pub s → ∃ key d, reported tr key d ∧ key_time key = pa_time p.
Proof.
  revert s. induction tr as [|op tr IH] using rev_ind; intros s H Hd Hp.
  - inversion H; subst. set_solver.
  - apply hrun_snoc in H as (m & H1 & H2 & H3).
    assert (∀ x, conf_dur tr = Some x → 0 < x) as Hd'. { intros x E. apply Hd. by apply conf_app_some. }
    assert (p ∈ hd_pub m → ∃ key d, reported (tr ++ [op]) key d ∧ key_time key = pa_time p) as Hold.
    { intros Hm. destruct (IH _ H1 Hd' Hm) as (key & d & ? & ?). exists key, d. split; [|done]. apply reported_snoc. auto. }
    destruct op as [r t1 t2|now|o']; cbn in H3.
    + apply (consume_cases tr) in H3 as (_ & Hpub & _); [|by eapply conf_reach]. rewrite Hpub in Hp. auto.
    + apply purge_host in H3 as (_ & _ & _ & _ & _ & Ht). destruct (truncate_ok _ _ _ Ht) as (n & E & _).
      rewrite E in Hp. apply Hold. rewrite <- (take_drop n (hd_pub m)). apply elem_of_app. auto.
    + destruct (recalc_published _ _ _ _ _ H1 Hd' H2 H3) as [J1 _].
      destruct (J1 p Hp) as [[Hx _]|[? _]]; [|auto].
      destruct (need_reported _ _ _ _ H1 Hx) as (key & d & ? & ?). exists key, d. split; [|done]. apply reported_snoc. auto.
Qed.

Lemma reported_loc loc tr key d : one_zone loc tr → reported tr key d → (key_time key).2 = loc.
Proof.
  intros Hz (r & t1 & t2 & Hr & Hu & Hd). rewrite reports_at_rl in Hd. apply elem_of_list_omap in Hd as (x & Hx & Hd).
  destruct x as [d'|]; [|done]. destruct (decide _) as [E|]; [|done]. rewrite <- E. cbn. by eapply Hz.
Qed.

Lemma sorted_strict l loc : NoDup (map pa_time l) → StronglySorted le_start l → (∀ p, p ∈ l → pa_loc p = loc) → increasing l.
Proof.
  intros Hn Hs Hl. induction l as [|p l IH]; [constructor|]. cbn in Hn. apply NoDup_cons in Hn as [Hp Hn].
  inversion Hs as [|? ? H1 H2]; subst. constructor.
  - apply IH; try done. intros q Hq. apply Hl. by right.
  - rewrite Forall_forall in H2 |- *. intros q Hq. specialize (H2 q Hq). unfold le_start in H2.
    destruct (decide (start p = start q)) as [E|]; [|lia]. exfalso. apply Hp.
    apply elem_of_list_fmap. exists q. split; [|done]. unfold pa_time. rewrite E, (Hl p), (Hl q); [done|by right|left].
Qed.

Lemma published_sorted hosts tr s loc : hrun (hd_init hosts) tr (Ok s) → (∀ x, conf_dur tr = Some x → 0 < x) →
  one_zone loc tr →
  increasing (hd_pub s) ∧ Z.of_nat (length (hd_pub s)) ≤ default 0 ((λ x, 7200000000000 `div` x) <$> conf_dur tr).
Proof.
  intros H Hd Hz. destruct (pub_reach _ _ _ H Hd) as [H1 H2 H3]. split.
  - apply (sorted_strict _ loc); try done. intros p Hp.
    destruct (pub_reported _ _ _ _ H Hd Hp) as (key & d & Hr & Ht).
    rewrite <- (reported_loc _ _ _ _ Hz Hr), Ht. done.
  - assert (Hc := conf_reach _ _ _ H). unfold conf_inv in Hc. destruct (conf_dur tr) as [x|]; cbn.
    + destruct Hc as (_ & _ & E). rewrite E in H3. rewrite Z.quot_div_nonneg in H3; [done|done|by apply Hd].
    + destruct Hc as (_ & E & _). rewrite E in H3. done.
Qed.
