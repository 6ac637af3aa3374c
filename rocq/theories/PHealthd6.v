(** * Proofs about healthd's aggregation state, part 6: what kills it *)
From Verif Require Import SHealthd PHealthd PHealthd2 PHealthd4.

Lemma ca_crash inst hp l : ∀ host need, None ∈ l → ∃ w, consume_aggs inst hp l host need = Crash w.
Proof.
  induction l as [|[x|] l IH]; intros host need Hn; [by apply elem_of_nil in Hn|cbn|eexists; done].
  apply elem_of_cons in Hn as [?|Hn]; [done|]. destruct (host !! _) as [old|]; [destruct (_ =? _)|]; by apply IH.
Qed.

Lemma null_dec (l : list (option dagg)) : {None ∈ l} + {None ∉ l}.
Proof.
  induction l as [|[x|] l [IH|IH]]; [right; apply not_elem_of_nil|left|right|left|left]; try (by constructor).
  apply not_elem_of_cons. done.
Qed.
Lemma quot_neg x : -7200000000000 ≤ x < 0 ↔ x ≠ 0 ∧ Z.quot hd_retain x < 0.
Proof.
  unfold hd_retain. split.
  - intros Hx. split; [lia|]. replace x with (- - x) by lia. rewrite Z.quot_opp_r by lia.
    assert (0 < Z.quot 7200000000000 (- x)); [|lia]. rewrite Z.quot_div_nonneg by lia. apply Z.div_str_pos. lia.
  - intros [H0 H]. destruct (decide (0 < x)) as [Hp|Hp].
    { assert (0 ≤ Z.quot 7200000000000 x) by (apply Z.quot_pos; lia). lia. }
    split; [|lia]. destruct (decide (-7200000000000 ≤ x)); [done|]. exfalso.
    replace x with (- - x) in H by lia. rewrite Z.quot_opp_r in H by lia. rewrite Z.quot_small in H by lia. done.
Qed.
Lemma backward_max tr s : conf_inv tr s → backward tr ↔ hd_max s < 0.
Proof.
  intros Hc. unfold backward, conf_inv in *. destruct (conf_dur tr) as [d|].
  - destruct Hc as (H0 & _ & ->). split.
    + intros (x & [= ->] & Hx). exact (proj2 (proj1 (quot_neg x) Hx)).
    + intros H. exists d. split; [done|]. exact (proj2 (quot_neg d) (conj H0 H)).
  - destruct Hc as (_ & -> & _). split; [by intros (x & ? & _)|lia].
Qed.
Lemma truncate_neg max l : max < 0 ↔ ∃ w, truncate_pub max l = Crash w.
Proof.
  split.
  - intros Hm. unfold truncate_pub. replace (max <? Z.of_nat (length l)) with true by (symmetry; apply Z.ltb_lt; lia).
    replace (Z.of_nat (length l) <? Z.of_nat (length l) - max) with true by (symmetry; apply Z.ltb_lt; lia). eauto.
  - intros [w Hw]. destruct (decide (max < 0)) as [|Hm]; [done|]. destruct (truncate_total max l) as [l' E]; [lia|]. congruence.
Qed.

(** with a negative number of intervals to keep nothing is ever published *)
Lemma backward_pub hosts tr s : hrun (hd_init hosts) tr (Ok s) → hd_max s < 0 → hd_pub s = [].
Proof.
  revert s. induction tr as [|op tr IH] using rev_ind; intros s H Hm.
  - inversion H; subst. done.
  - apply hrun_snoc in H as (m & H1 & H2 & H3). assert (Hc := conf_reach _ _ _ H1).
    destruct op as [r t1 t2|now|o]; cbn in H3.
    + destruct (consume_cases _ _ _ _ _ _ Hc H3) as (_ & Hp & _ & _). rewrite Hp. unfold consume in H3. unfold conf_inv in Hc.
      destruct (conf_dur tr) as [d|]; [|by destruct Hc as (_ & _ & _ & _ & ?)]. destruct Hc as (H0 & Hd & _). apply IH; [done|].
      destruct (resp_good r); [|by injection H3 as <-]. replace (hd_dur m =? 0) with false in H3 by (symmetry; apply Z.eqb_neq; congruence).
      destruct (hd_dur m =? r_dur r); [|by injection H3 as <-]. destruct consume_aggs; cbn in H3; [|done]. by injection H3 as <-.
    + apply purge_host in H3 as (_ & _ & _ & _ & E & Ht). rewrite E in Hm. destruct (proj1 (truncate_neg _ (hd_pub m)) Hm) as [w Hw]. congruence.
    + apply recalc_host in H3 as (_ & _ & _ & _ & E & Ht). rewrite E in *. specialize (IH m H1 Hm). rewrite IH in Ht.
      destruct (ro_keys o) as [|k ks]; [by injection Ht as <-|]. cbn in Ht. destruct merge_entries as [p|]; cbn in Ht; [|done].
      destruct (proj1 (truncate_neg (hd_max m) (ro_sort o [p])) Hm) as [w Hw].
      unfold set_aggregation in Ht. cbn in Ht. rewrite Hw in Ht. done.
Qed.

Lemma recalc_loop_crash o max ks : ∀ pub, 0 ≤ max →
  (∃ w, recalc_loop o max ks pub = Crash w) ↔ ∃ k kd, k ∈ ks ∧ kd ∈ ro_entries o k ∧ key_time kd.1 = k ∧ d_null kd.2 = true.
Proof.
  induction ks as [|k ks IH]; intros pub Hm; cbn.
  { split; [by intros [w ?]|]. intros (k & kd & Hk & _). by apply elem_of_nil in Hk. }
  unfold merge_entries. destruct (existsb d_null _) eqn:E; cbn.
  - split; [|eauto]. intros _. apply existsb_exists in E as (d & Hd & Hdn).
    apply elem_of_list_In, elem_of_list_fmap in Hd as (kd & -> & Hkd). apply elem_of_list_filter in Hkd as [Hk Hkd].
    exists k, kd. split; [left|done].
  - assert (∀ kd, kd ∈ ro_entries o k → key_time kd.1 = k → d_null kd.2 = false) as Hno.
    { intros kd Hkd Hk. destruct (d_null kd.2) eqn:Ed; [|done]. exfalso. apply not_true_iff_false in E. apply E.
      apply existsb_exists. exists kd.2. split; [|done]. apply elem_of_list_In, elem_of_list_fmap. exists kd. split; [done|].
      apply elem_of_list_filter. done. }
    destruct (set_aggregation _ _ _ _) as [pub'|w] eqn:Es; cbn.
    + rewrite (IH pub' Hm). split.
      * intros (k' & kd & Hk & H). exists k', kd. split; [by right|done].
      * intros (k' & kd & Hk & H1 & H2 & H3). apply elem_of_cons in Hk as [->|Hk]; [|eauto 10].
        rewrite (Hno kd H1 H2) in H3. done.
    + exfalso. unfold set_aggregation in Es. destruct replace_pub; [done|].
      match type of Es with truncate_pub max ?l = _ => destruct (truncate_total max l Hm) as [l' E'] end. congruence.
Qed.

Lemma crashes_exactly hosts tr s op : hrun (hd_init hosts) tr (Ok s) → hop_ok s op →
  (∃ w, hstep s op = Crash w) ↔ deadly tr s op.
Proof.
  intros H Ho. assert (Hc := conf_reach _ _ _ H). destruct op as [r t1 t2|now|o]; cbn [hstep deadly].
  - unfold consume. destruct (resp_good r) eqn:Eg.
    + apply resp_good_usable in Eg. unfold counted. unfold conf_inv in Hc. destruct (conf_dur tr) as [d|].
      * destruct Hc as (H0 & Hd & _). rewrite Hd. replace (d =? 0) with false by (symmetry; by apply Z.eqb_neq).
        destruct (d =? r_dur r) eqn:Ed.
        -- apply Z.eqb_eq in Ed. destruct (null_dec (r_aggs r)) as [Hn|Hn].
           ++ destruct (ca_crash (r_inst r) (r_hp r) _ (hd_host s) (hd_need s) Hn) as [w ->]. cbn. split; [|eauto]. by auto.
           ++ destruct (ca_total (r_inst r) (r_hp r) (r_aggs r) (hd_host s) (hd_need s) Hn) as [x ->]. cbn.
              split; [by intros [w ?]|]. by intros [_ [?|[? _]]].
        -- apply Z.eqb_neq in Ed. split; [by intros [w ?]|]. intros [[_ E] _]. congruence.
      * destruct Hc as (Hd & _). rewrite Hd. cbn. destruct (r_dur r =? 0) eqn:Ez.
        -- apply Z.eqb_eq in Ez. split; [|eauto]. intros _. split; [done|]. by right.
        -- apply Z.eqb_neq in Ez. destruct (null_dec (r_aggs r)) as [Hn|Hn].
           ++ destruct (ca_crash (r_inst r) (r_hp r) _ (hd_host s) (hd_need s) Hn) as [w ->]. cbn. split; [|eauto]. by auto.
           ++ destruct (ca_total (r_inst r) (r_hp r) (r_aggs r) (hd_host s) (hd_need s) Hn) as [x ->]. cbn.
              split; [by intros [w ?]|]. by intros [_ [?|[_ ?]]].
    + split; [by intros [w ?]|]. intros [[Hu _] _]. apply resp_good_usable in Hu. congruence.
  - rewrite (backward_max _ _ Hc), (truncate_neg _ (hd_pub s)). unfold purge.
    destruct truncate_pub as [l|w]; cbn; [|by split; eauto]. split; intros [w ?]; done.
  - destruct Ho as (Hk & He & _). unfold recalc. destruct (decide (hd_max s < 0)) as [Hm|Hm].
    + rewrite (backward_pub _ _ _ H Hm). destruct (ro_keys o) as [|k ks] eqn:Eks.
      * cbn. split; [by intros [w ?]|]. symmetry in Hk. apply Permutation_nil_r, elements_empty_inv in Hk.
        intros [[Hn _]|(key & d & _ & Hin & _)]; [|rewrite Hk in Hin; by apply elem_of_empty in Hin].
        exfalso. apply Hn. by apply leibniz_equiv.
      * split; [|intros _].
        -- intros _. left. split; [|by apply (backward_max _ _ Hc)]. intros E. rewrite E, elements_empty in Hk. by apply Permutation_nil_r in Hk.
        -- cbn. destruct merge_entries as [p|w]; cbn; [|eauto].
           destruct (proj1 (truncate_neg (hd_max s) (ro_sort o [p])) Hm) as [w Hw].
           unfold set_aggregation. cbn. rewrite Hw. cbn. eauto.
    + assert ((∃ w, recalc_loop o (hd_max s) (ro_keys o) (hd_pub s) = Crash w) ↔
        ∃ key d, hd_host s !! key = Some d ∧ key_time key ∈ hd_need s ∧ d_null d = true) as Hl.
      { rewrite recalc_loop_crash by lia. split.
        - intros (k & [key d] & Hk1 & Hkd & Hkk & Hn). cbn in *. exists key, d. rewrite He in Hkd. apply elem_of_map_to_list in Hkd.
          split; [done|]. split; [|done]. rewrite Hk, elem_of_elements in Hk1. by subst.
        - intros (key & d & Hd & Hin & Hn). exists (key_time key), (key, d). rewrite Hk, elem_of_elements, He, elem_of_map_to_list. done. }
      destruct recalc_loop as [l|w]; cbn.
      * split; [by intros [w ?]|]. intros [[_ Hb]|Hx]; [apply (backward_max _ _ Hc) in Hb; lia|]. apply Hl in Hx as [w ?]. done.
      * split; [|eauto]. intros _. right. apply Hl. eauto.
Qed.

(** data with a null entry that arrived since the last recalculation *)
Lemma null_kills hosts tr1 tr2 s key d o : hrun (hd_init hosts) (tr1 ++ tr2) (Ok s) → serials_honest (tr1 ++ tr2) →
  Forall (λ op, ¬ is_recalc op) tr2 → is_latest (tr1 ++ tr2) key d → ¬ is_latest tr1 key d → d_null d = true →
  hop_ok s (HRecalc o) → ∃ w, hstep s (HRecalc o) = Crash w.
Proof.
  intros H Hh Hn Hl Hnl Hd Ho. apply (crashes_exactly _ _ _ _ H Ho). right. exists key, d.
  split; [by apply (stored_latest _ _ _ _ _ H Hh)|]. split; [|done]. by eapply changed_pending.
Qed.
