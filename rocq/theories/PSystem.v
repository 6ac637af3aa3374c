(** * Proofs about whole executions: emissions, answers, healthd *)
From Verif Require Import SHealth PRequest SSystem PContent PContent2 PAgg PAgg2 PMerge2 PHealthd PHealthd2 PHealthd3 PHealthd4 PWire3.

(** ** what counters say about emissions *)
Lemma mget_counter (m : gmap string Z) e n : m !! e = counter_entry n → mget m e 0 = w64 (Z.of_nat n).
Proof. unfold mget, counter_entry. intros ->. by destruct (decide (n = 0%nat)) as [->|]. Qed.
Lemma mctr_am_of c l : mctr_val c (am_of l) = w64 (m_tally c l).
Proof.
  destruct c as [e|e|e|e]; cbn [mctr_val m_tally]; unfold ev, er, tm, mget.
  - apply mget_counter, am_of_events.
  - rewrite am_of_errs. destruct (errors_of e l) eqn:E; [done|]. rewrite <- E. cbn [default from_option id]. apply errc_of_count.
  - rewrite am_of_timers. destruct (timings_of e l) eqn:E; [done|]. rewrite <- E. cbn [default from_option id]. apply timer_of_count.
  - rewrite am_of_timers. destruct (timings_of e l) eqn:E; [done|]. rewrite <- E. cbn [default from_option id]. apply timer_of_sum.
Qed.
Lemma jctr_job_of c l : jctr_val c (job_of l) = w64 (j_tally c l).
Proof.
  destruct (job_of_counters l) as (H1&H2&H3&H4&H5).
  destruct c; cbn [jctr_val j_tally]; try done.
  - rewrite job_of_timer, timer_of_count, map_length. done.
  - rewrite job_of_timer. apply timer_of_sum.
  - rewrite job_of_maps. apply mctr_am_of.
Qed.
Lemma ctr_ia_of c s l : ctr_val c (ia_of s l) = w64 (tally c l).
Proof.
  destruct c as [c|j c]; cbn [ctr_val tally].
  - rewrite ia_of_maps. apply mctr_am_of.
  - unfold mget. rewrite ia_of_jobs. destruct (of_job j l) eqn:E; cbn [default from_option id].
    + change job0 with (job_of []). apply jctr_job_of.
    + apply jctr_job_of.
Qed.
Lemma mctr_wire c m : mctr_val c (wire_maps m) = mctr_val c m.
Proof. destruct c as [e|e|e|e]; try done. cbn. unfold er, mget, wire_maps. cbn. rewrite lookup_fmap. by destruct (am_errs m !! e). Qed.
Lemma ctr_wire c a : ctr_val c (wire_ia a) = ctr_val c a.
Proof.
  destruct c as [c|j c]; cbn [ctr_val wire_ia ia_maps ia_jobs]; [apply mctr_wire|].
  unfold mget. rewrite lookup_fmap. destruct (ia_jobs a !! j) as [ja|]; [|done]. cbn.
  destruct c; try done. apply mctr_wire.
Qed.
Lemma int64_wire_maps m : int64_maps m → int64_maps (wire_maps m).
Proof.
  intros (H1&H2&H3). split; [done|]. split; [done|]. intros k c. cbn. rewrite lookup_fmap.
  destruct (am_errs m !! k) eqn:E; [|done]. intros [= <-]. exact (H3 _ _ E).
Qed.
Lemma int64_wire a : int64_ia a → int64_ia (wire_ia a).
Proof.
  intros (H1&H2&H3). split; [done|]. split; [by apply int64_wire_maps|]. intros k j. cbn. rewrite lookup_fmap.
  destruct (ia_jobs a !! k) eqn:E; [|done]. intros [= <-]. destruct (H3 _ _ E) as (J1&J). split; [by apply int64_wire_maps|done].
Qed.

(** ** an answer, from the history alone *)
Lemma out_eq d retain h t out : 0 < d → d ≤ retain → clock_monotone (h ++ [(t, OpRead)]) → get_metrics d retain h t = Ok out →
  out = map (λ s, ia_of s (cmds_in d s h)) (listed d retain (h ++ [(t, OpRead)])).
Proof.
  intros Hd Hr Hc Hg. destruct (thm_window d retain h t out Hd Hr Hc Hg) as (Hw & _).
  unfold listed. rewrite (map_app fst). cbn [map fst]. rewrite <- Hw, map_map.
  assert (∀ x, x ∈ out → ia_of (ia_start x) (cmds_in d (ia_start x) h) = x) as H.
  { intros x Hx. destruct (pull_in d retain h t out Hd Hr Hc Hg x Hx) as [s ->]. by rewrite ia_of_start. }
  clear Hw Hg. induction out as [|x out IH]; [done|]. cbn. rewrite H by left. f_equal. apply IH. intros y Hy. apply H. by right.
Qed.
Lemma wire_const off loc z out : (∀ n u, loc n (off u) = z) → wire_ias off loc out = map (λ x, Some (DAgg z (wire_ia x) false)) out.
Proof.
  intros H. unfold wire_ias. rewrite <- (imap_const (λ x, Some (DAgg z (wire_ia x) false))).
  apply imap_ext. intros. by rewrite H.
Qed.
Lemma poll_reply w s hp ts code nanos y stack w' r :
  poll w s hp ts (FReply code nanos y) stack = Ok (w', r) → r = Resp hp ts None code nanos (y_inst y) (y_dur y) (y_aggs y).
Proof.
  unfold poll. destruct (new_job w s "poll") as [w1 j]. cbn [rbind]. destruct (new_map _ _) as [w2 m].
  destruct (job_complete_kv _ _ _ _); cbn [rbind]; [|done]. by intros [= _ <-].
Qed.

(** ** healthd after a recalculation, whenever the data came *)
Definition undropped (tr : list hop) (k : gotime) : Prop :=
  ∀ tr1 now tr2 key d, tr = tr1 ++ HPurge now :: tr2 → key_time key = k → is_latest tr1 key d → ¬ expires tr1 key now.
Lemma nexp_prefix tr1 tr2 k : undropped (tr1 ++ tr2) k → undropped tr1 k.
Proof. intros H tra now trb key d -> Hk. eapply (H tra now (trb ++ tr2)); [|done]. by rewrite <- app_assoc. Qed.
Lemma latest_resp_usable tr key d : is_latest tr key d → ∃ r t1 t2, HResp r t1 t2 ∈ tr ∧ usable r.
Proof. intros (tr1&r&t1&t2&tr2&->&[Hu _]&_). exists r, t1, t2. split; [|done]. apply elem_of_app. right. left. Qed.
Lemma usable_conf tr r t1 t2 : HResp r t1 t2 ∈ tr → usable r → conf_dur tr ≠ None.
Proof.
  intros Hin Hu. unfold conf_dur. destruct (omap good_of tr) eqn:E; [|done].
  assert (r ∈ omap good_of tr) as Hr. { apply elem_of_list_omap. exists (HResp r t1 t2). split; [done|]. cbn. by rewrite decide_True. }
  rewrite E in Hr. by apply elem_of_nil in Hr.
Qed.
Lemma truncate_short max pub pub' : Z.of_nat (length pub) ≤ max → truncate_pub max pub = Ok pub' → pub' = pub.
Proof. intros Hl. unfold truncate_pub. destruct (Z.ltb_spec max (Z.of_nat (length pub))); [lia|]. by intros [= <-]. Qed.
Lemma latest_at_same tr tr' k l : (∀ key d, key_time key = k → is_latest tr key d ↔ is_latest tr' key d) →
  latest_at tr k l → latest_at tr' k l.
Proof. intros H [Hn Hl]. split; [done|]. intros key d. rewrite Hl. split; intros [H1 H2]; (split; [|done]); by apply (H key d H2). Qed.

Definition settled (tr : list hop) (s : MHealthd.hd) (k : gotime) : Prop :=
  (∀ p, p ∈ hd_pub s → pa_time p = k → ∃ l, latest_at tr k l ∧ pa_ia p = merge_all k.1 (map (d_ia ∘ snd) l)) ∧
  (∀ key d, is_latest tr key d → key_time key = k → cover (hd_max s) (hd_pub s) k).
Lemma settled_same tr tr' s s' k : (∀ key d, key_time key = k → is_latest tr key d ↔ is_latest tr' key d) →
  hd_pub s' = hd_pub s → hd_max s' = hd_max s ∨ conf_dur tr = None → settled tr s k → settled tr' s' k.
Proof.
  intros H Hp Hm [S1 S2]. split.
  - intros p. rewrite Hp. intros Hin Hk. destruct (S1 p Hin Hk) as (l&L1&L2). exists l. split; [by eapply latest_at_same|done].
  - intros key d Hl Hk. apply (H _ _ Hk) in Hl. destruct Hm as [->|Hc].
    + rewrite Hp. by eapply S2.
    + exfalso. apply latest_resp_usable in Hl as (r&t1&t2&Hin&Hu). by apply (usable_conf _ _ _ _ Hin Hu).
Qed.

Lemma settled_reach hosts tr s k : hrun (hd_init hosts) tr (Ok s) → serials_honest tr → (∀ d, conf_dur tr = Some d → 0 < d) →
  undropped tr k → k ∉ hd_need s → settled tr s k.
Proof.
  revert s. induction tr as [|op tr IH] using rev_ind; intros s H Hh Hd He Hk.
  { inversion H; subst. split; [intros p Hp; by apply elem_of_nil in Hp|]. intros key d Hl. apply latest_resp_usable in Hl as (r&t1&t2&Hin&_). by apply elem_of_nil in Hin. }
  assert (Hlat' := λ key d, stored_latest hosts _ s key d H Hh).
  assert (Hc' := conf_reach _ _ _ H). apply hrun_snoc in H as (m & H1 & H2 & H3). assert (Hc := conf_reach _ _ _ H1).
  assert (Hh1 := honest_prefix _ _ Hh). assert (He1 := nexp_prefix _ _ _ He).
  assert (∀ d, conf_dur tr = Some d → 0 < d) as Hd1. { intros d E. apply Hd. by apply conf_app_some. }
  assert (Hlat := λ key d, stored_latest hosts _ m key d H1 Hh1).
  specialize (λ X, IH m H1 Hh1 Hd1 He1 X).
  destruct op as [r t1 t2|now|o]; cbn in H3.
  - apply (consume_cases tr) in H3 as (_ & Hp & _ & Hcase); [|done].
    assert (k ∉ hd_need m ∧ ∀ key, key_time key = k → hd_host s !! key = hd_host m !! key) as [Hkm Hsame].
    { destruct Hcase as [[_ Ha]|(_ & Hx & Hy)].
      - split; [intros X; apply Hk; by apply (ca_need_mono _ _ _ _ _ _ _ Ha)|].
        intros key Hkey. destruct (ca_changed _ _ _ _ _ _ _ key Ha) as [|X]; [done|]. by rewrite Hkey in X.
      - rewrite Hx, <- Hy. done. }
    eapply settled_same; [| exact Hp | |by apply IH].
    + intros key d Hkey. rewrite <- Hlat, <- Hlat'. by rewrite Hsame.
    + unfold conf_inv in Hc, Hc'. destruct (conf_dur tr) as [d|] eqn:E; [|by right]. left.
      rewrite (conf_app_some _ _ _ E) in Hc'. destruct Hc as (_&_&->), Hc' as (_&_&->). done.
  - assert (Hpi := pub_reach _ _ _ H1 Hd1). apply purge_host in H3 as (Hx & Hn & _ & _ & Hm & Ht).
    apply truncate_short in Ht; [|apply Hpi].
    eapply settled_same; [|exact Ht|by left|apply IH; by rewrite <- Hn].
    intros key d Hkey. rewrite latest_snoc. split.
    + intros Hl. left. split; [done|]. cbn. by eapply (He tr now []).
    + intros [[Hl _]|(?&?&?&?&_)]; done.
  - destruct (recalc_published _ _ _ _ _ H1 Hd1 H2 H3) as [J1 J2].
    assert (J3 := H3). apply recalc_host in J3 as (_ & _ & _ & _ & Hm & Hloop).
    assert (Hsl : ∀ key d, key_time key = k → is_latest tr key d ↔ is_latest (tr ++ [HRecalc o]) key d).
    { intros key d _. rewrite latest_snoc. split; [intros Hl; left; split; [done|intros []]|]. intros [[Hl _]|(?&?&?&?&_)]; done. }
    destruct (decide (k ∈ hd_need m)) as [Hkm|Hkm].
    + split.
      * intros p Hp Hpk. destruct (J1 p Hp) as [[_ (l & L1 & L2)]|[_ X]]; [|by rewrite Hpk in X]. rewrite Hpk in L1, L2.
        exists l. split; [|done]. eapply latest_at_same; [exact Hsl|]. by eapply at_time_latest.
      * intros key d _ _. rewrite Hm. by apply J2.
    + destruct (IH Hkm) as [S1 S2]. split.
      * intros p Hp Hpk. destruct (J1 p Hp) as [[X _]|[X _]]; [by rewrite Hpk in X|].
        destruct (S1 p X Hpk) as (l & L1 & L2). exists l. split; [|done]. by eapply latest_at_same.
      * intros key d Hl Hkey. apply (Hsl _ _ Hkey) in Hl. rewrite Hm.
        destruct H2 as (Hk2 & _ & Hs). apply recalc_loop_spec in Hloop as (_&_&_&J4); [|done|by apply (pub_reach _ _ _ H1)|rewrite Hk2; apply NoDup_elements].
        apply J4. by eapply S2.
Qed.

(** ** healthd's operations during an execution *)
Section system.
  Context (ff : f64 → string) (d : Z) (P : nat → proc) (zone : N) (TR : list sev).
  Context (Hff : float_codec ff) (H64 : in_int64 d) (Hd : 0 < d) (HP : procs_ok d P TR).
  Notation H := (λ i, hist i TR).
  Definition lists (i k : nat) (s : Z) : Prop := s ∈ listed d (p_retain (P i)) (take (S k) (hist i TR)).
  Definition content (i k : nat) (s : Z) : dagg := DAgg zone (wire_ia (ia_of s (cmds_in d s (take k (hist i TR))))) false.
  Definition key_of (i : nat) (s : Z) : hkey := ((s, zone), p_inst (P i), p_hp (P i)).
  Lemma content_time i k s : d_time (content i k s) = (s, zone).
  Proof. unfold d_time, content. cbn. by rewrite ia_of_start. Qed.
  Definition shape (i k : nat) (r : resp) : Prop :=
    usable r ∧ r_hp r = p_hp (P i) ∧ r_inst r = p_inst (P i) ∧ r_dur r = d ∧
    r_aggs r = map (λ s, Some (content i k s)) (listed d (p_retain (P i)) (take (S k) (hist i TR))).

  Lemma hist_app i tr1 tr2 : hist i (tr1 ++ tr2) = hist i tr1 ++ hist i tr2.
  Proof. apply omap_app. Qed.
  Lemma recv_shape tr i k t out msg code body loc nanos x part w s ts stack w' r :
    tr `prefix_of` TR → hist i tr !! k = Some (t, OpRead) →
    get_metrics d (p_retain (P i)) (take k (hist i tr)) t = Ok out →
    serve_health ff (p_off (P i)) msg "/health" (p_inst (P i)) d out = (code, body) →
    (∀ n u, loc n (p_off (P i) u) = zone) →
    poll w s (p_hp (P i)) ts (fetch_of loc code nanos x part body) stack = Ok (w', r) → shape i k r.
  Proof using Hff H64 Hd HP.
    intros [tr' HTR] Hk Hg Hsv Hz Hpoll.
    assert (Hk' : hist i TR !! k = Some (t, OpRead)). { rewrite HTR, hist_app. by apply lookup_app_l_Some. }
    assert (Htk : take k (hist i tr) = take k (hist i TR)).
    { rewrite HTR, hist_app, take_app_le; [done|]. apply lookup_lt_Some in Hk. lia. }
    rewrite Htk in Hg. assert (Hsk := take_S_r _ _ _ Hk').
    assert (Hmono : clock_monotone (take k (hist i TR) ++ [(t, OpRead)])).
    { apply (clock_monotone_app _ (drop (S k) (hist i TR))). rewrite <- Hsk, take_drop. apply HP. }
    destruct (thm_end_to_end ff (p_off (P i)) msg (p_inst (P i)) d (p_retain (P i)) (take k (hist i TR)) t out loc 200 nanos x part) as (body'&B1&B2); try done.
    { apply HP. } { apply HP. }
    { intros u o Hin. apply (po_hist _ _ _ HP i). rewrite <- Hsk in Hin. by eapply elem_of_take in Hin as (?&?&_); eapply elem_of_list_lookup_2. }
    rewrite Hsv in B1. injection B1 as -> ->. rewrite B2 in Hpoll. apply poll_reply in Hpoll as ->. cbn.
    split; [done|]. split; [done|]. split; [done|]. split; [done|]. cbn.
    rewrite (wire_const _ _ zone) by done.
    rewrite (out_eq _ _ _ _ _ Hd (po_retain _ _ _ HP i) Hmono Hg), <- Hsk, map_map. done.
  Qed.

  Lemma shape_reports i k r key x : shape i k r →
    x ∈ reports_at r key ↔ ∃ s, lists i k s ∧ x = content i k s ∧ key = key_of i s.
  Proof.
    intros (_&Hhp&Hin&_&Ha). unfold reports_at. rewrite elem_of_list_omap, Ha, Hhp, Hin. split.
    - intros (y & Hy & Hm). apply elem_of_list_fmap in Hy as (s & -> & Hs). destruct (decide _) as [E|]; [|done].
      injection Hm as <-. exists s. split; [done|]. split; [done|]. by rewrite <- E, content_time.
    - intros (s & Hs & -> & ->). exists (Some (content i k s)). split; [apply elem_of_list_fmap; eauto|]. rewrite content_time. by rewrite decide_True.
  Qed.
  Lemma shape_last i k r s : shape i k r → lists i k s → last (reports_at r (key_of i s)) = Some (content i k s).
  Proof.
    intros Hs Hl. destruct (last (reports_at r (key_of i s))) as [x|] eqn:E.
    - apply last_Some_elem_of in E. apply (shape_reports _ _ _ _ _ Hs) in E as (s' & _ & -> & E). by injection E as <-.
    - apply last_None in E. assert (content i k s ∈ reports_at r (key_of i s)) as X by (apply (shape_reports _ _ _ _ _ Hs); eauto).
      rewrite E in X. by apply elem_of_nil in X.
  Qed.

  Lemma sys_shapes tr ops : sys ff d P zone tr ops → tr `prefix_of` TR →
    ∀ r t1 t2, HResp r t1 t2 ∈ ops → usable r → ∃ i k, shape i k r.
  Proof using Hff H64 Hd HP.
    intros HS. induction HS as [|tr ops i t o HS IH|tr ops i k t out msg code body loc nanos x part w s ts stack w' r t1 t2 HS IH Hk Hg Hsv Hz Hp
      |tr ops r t1 t2 HS IH Hu|tr ops now HS IH|tr ops o HS IH]; intros Hpre r0 u1 u2 Hin Hus.
    - by apply elem_of_nil in Hin.
    - eapply IH; eauto. etrans; [|exact Hpre]. by apply prefix_app_r.
    - assert (tr `prefix_of` TR) as Hpre1 by (etrans; [|exact Hpre]; by apply prefix_app_r).
      apply elem_of_app in Hin as [Hin|Hin]; [by eapply IH|]. apply elem_of_list_singleton in Hin. injection Hin as -> -> ->.
      exists i, k. by eapply recv_shape.
    - apply elem_of_app in Hin as [Hin|Hin]; [eapply IH; eauto; etrans; [|exact Hpre]; by apply prefix_app_r|].
      apply elem_of_list_singleton in Hin. injection Hin as -> -> ->. done.
    - apply elem_of_app in Hin as [Hin|Hin]; [eapply IH; eauto; etrans; [|exact Hpre]; by apply prefix_app_r|].
      apply elem_of_list_singleton in Hin. done.
    - apply elem_of_app in Hin as [Hin|Hin]; [eapply IH; eauto; etrans; [|exact Hpre]; by apply prefix_app_r|].
      apply elem_of_list_singleton in Hin. done.
  Qed.
  Lemma sys_conf tr ops x : sys ff d P zone tr ops → tr `prefix_of` TR → conf_dur ops = Some x → x = d.
  Proof using Hff H64 Hd HP.
    intros HS Hpre E. apply conf_dur_elem in E as (r&t1&t2&Hin&Hu&<-).
    destruct (sys_shapes _ _ HS Hpre _ _ _ Hin Hu) as (i&k&_&_&_&E&_). done.
  Qed.

  (** the last answer heard of, one event at a time *)
  Definition heard1 (tr : list sev) (i : nat) (s : Z) (k : nat) : Prop :=
    ∃ tr1 tr2, tr = tr1 ++ SRecv i k :: tr2 ∧ lists i k s ∧ ∀ k', SRecv i k' ∈ tr2 → ¬ lists i k' s.
  Lemma heard_snoc tr e i s k : heard1 (tr ++ [e]) i s k ↔
    (heard1 tr i s k ∧ ∀ k', e = SRecv i k' → ¬ lists i k' s) ∨ (e = SRecv i k ∧ lists i k s).
  Proof.
    split.
    - intros (tr1 & tr2 & E & Hl & Hn). destruct tr2 as [|e2 tr2 _] using rev_ind.
      + apply app_inj_tail in E as [-> ->]. auto.
      + rewrite app_comm_cons, app_assoc in E. apply app_inj_tail in E as [-> ->]. left. split.
        * exists tr1, tr2. split; [done|]. split; [done|]. intros k' Hk'. apply Hn. apply elem_of_app. auto.
        * intros k' ->. apply Hn. apply elem_of_app. right. left.
    - intros [[(tr1 & tr2 & -> & Hl & Hn) He]|[-> Hl]].
      + exists tr1, (tr2 ++ [e]). rewrite <- app_assoc. split; [done|]. split; [done|]. intros k' Hk'.
        apply elem_of_app in Hk' as [Hk'|Hk']; [by apply Hn|]. apply elem_of_list_singleton in Hk'. by apply He.
      + exists tr, []. split; [done|]. split; [done|]. intros k' Hk'. by apply elem_of_nil in Hk'.
  Qed.
  Lemma heard_fun tr i s k k' : heard1 tr i s k → heard1 tr i s k' → k = k'.
  Proof.
    induction tr as [|e tr IH] using rev_ind.
    { intros (tr1 & tr2 & E & _). by destruct tr1. }
    rewrite !heard_snoc. intros [[H1 H2]|[-> H2]] [[H3 H4]|[E H4]].
    - by apply IH.
    - exfalso. by apply (H2 k').
    - exfalso. by apply (H4 k).
    - by injection E.
  Qed.

  Lemma apart i j s s' : key_of i s = key_of j s' → i = j ∧ s = s'.
  Proof using HP. intros [= E1 E2 E3]. split; [by apply (po_apart _ _ _ HP)|done]. Qed.

  Lemma latest_heard tr ops : sys ff d P zone tr ops → tr `prefix_of` TR → ∀ s, kept d s TR → ∀ key x, (key_time key).1 = s →
    is_latest ops key x ↔ ∃ i k, heard1 tr i s k ∧ key = key_of i s ∧ x = content i k s.
  Proof using Hff H64 Hd HP.
    intros HS. induction HS as [|tr ops i t o HS IH|tr ops i k t out msg code body loc nanos x part w s ts stack w' r t1 t2 HS IH Hk Hg Hsv Hz Hp
      |tr ops r t1 t2 HS IH Hu|tr ops now HS IH|tr ops o HS IH]; intros Hpre s0 Hkept key dd Hkey.
    - split.
      + intros Hl. apply latest_resp_usable in Hl as (?&?&?&Hin&_). by apply elem_of_nil in Hin.
      + intros (i & k & (tr1 & tr2 & E & _) & _). by destruct tr1.
    - assert (tr `prefix_of` TR) as Hpre1 by (etrans; [|exact Hpre]; by apply prefix_app_r).
      rewrite (IH Hpre1 s0 Hkept key dd Hkey). split; intros (j & k & Hj & E); exists j, k; (split; [|done]).
      + apply heard_snoc. left. by split.
      + apply heard_snoc in Hj as [[? _]|[? _]]; done.
    - assert (tr `prefix_of` TR) as Hpre1 by (etrans; [|exact Hpre]; by apply prefix_app_r).
      assert (Hsh : shape i k r) by (by eapply recv_shape).
      assert (Hct : counted ops r).
      { split; [apply Hsh|]. destruct (conf_dur ops) as [y|] eqn:E; [|done]. apply (sys_conf _ _ _ HS Hpre1) in E as ->. apply Hsh. }
      rewrite latest_snoc. rewrite (IH Hpre1 s0 Hkept key dd Hkey). split.
      + intros [[(j & k0 & Hj & -> & ->) Ht]|(r' & u1 & u2 & E & _ & Hlast)].
        * exists j, k0. split; [|done]. apply heard_snoc. left. split; [done|]. intros k' [= -> ->] Hl. apply Ht. split; [done|].
          intros E. apply (elem_of_nil (A:=dagg) (content j k' s0)). rewrite <- E. apply (shape_reports _ _ _ _ _ Hsh). eauto.
        * injection E as <- <- <-. apply last_Some_elem_of in Hlast. apply (shape_reports _ _ _ _ _ Hsh) in Hlast as (s1 & Hs1 & -> & ->).
          cbn in Hkey. subst s1. exists i, k. split; [|done]. apply heard_snoc. by right.
      + intros (j & k0 & Hj & -> & ->). apply heard_snoc in Hj as [[Hj Hn]|[E Hl]].
        * left. split; [eauto|]. intros [_ Hne]. destruct (reports_at r (key_of j s0)) as [|y l] eqn:E; [done|].
          assert (y ∈ reports_at r (key_of j s0)) as Hy by (rewrite E; left). apply (shape_reports _ _ _ _ _ Hsh) in Hy as (s1 & Hs1 & _ & Ek).
          apply apart in Ek as [-> ->]. by apply (Hn k).
        * injection E as -> ->. right. exists r, t1, t2. split; [done|]. split; [done|]. by apply shape_last.
    - assert (tr `prefix_of` TR) as Hpre1 by (etrans; [|exact Hpre]; by apply prefix_app_r).
      rewrite latest_snoc, (IH Hpre1 s0 Hkept key dd Hkey). split.
      + intros [[(j & k & Hj & E) _]|(r' & u1 & u2 & E & [Hx _] & _)]; [|by injection E as <- <- <-].
        exists j, k. split; [|done]. apply heard_snoc. left. by split.
      + intros (j & k & Hj & E). apply heard_snoc in Hj as [[Hj _]|[? _]]; [|done]. left. split; [eauto|]. by intros [[Hx _] _].
    - assert (tr `prefix_of` TR) as Hpre1 by (etrans; [|exact Hpre]; by apply prefix_app_r).
      rewrite latest_snoc. split.
      + intros [[Hl _]|(r' & u1 & u2 & E & _)]; [|done]. apply (IH Hpre1 s0 Hkept key dd Hkey) in Hl as (j & k & Hj & E).
        exists j, k. split; [|done]. apply heard_snoc. left. by split.
      + intros (j & k & Hj & E). apply heard_snoc in Hj as [[Hj _]|[? _]]; [|done]. left.
        assert (is_latest ops key dd) as Hl by (apply (IH Hpre1 s0 Hkept key dd Hkey); eauto). split; [done|].
        cbn. unfold expires. destruct (latest_resp_usable _ _ _ Hl) as (r & u1 & u2 & Hin & Hu).
        assert (Hcf := usable_conf _ _ _ _ Hin Hu). destruct (conf_dur ops) as [y|] eqn:Ey; [|done]. clear Hcf.
        apply (sys_conf _ _ _ HS Hpre1) in Ey as ->. cbn.
        assert (since (now key) s0 ≤ w64 (d * 5)); [|rewrite Hkey; lia]. apply Hkept; [|done].
        destruct Hpre as [tr' ->]. apply elem_of_app. left. apply elem_of_app. right. left.
    - assert (tr `prefix_of` TR) as Hpre1 by (etrans; [|exact Hpre]; by apply prefix_app_r).
      rewrite latest_snoc, (IH Hpre1 s0 Hkept key dd Hkey). split.
      + intros [[(j & k & Hj & E) _]|(r' & u1 & u2 & E & _)]; [|done].
        exists j, k. split; [|done]. apply heard_snoc. left. by split.
      + intros (j & k & Hj & E). apply heard_snoc in Hj as [[Hj _]|[? _]]; [|done]. left. split; [eauto|]. by intros [].
  Qed.

  Lemma content_serial i k1 k2 s : ia_serial (d_ia (content i k1 s)) = ia_serial (d_ia (content i k2 s)) → content i k1 s = content i k2 s.
  Proof using HP.
    assert (∀ a b, (a ≤ b)%nat → ia_serial (d_ia (content i a s)) = ia_serial (d_ia (content i b s)) → content i a s = content i b s) as G.
    { intros a b Hab. unfold content. cbn. rewrite !ia_of_serial. intros E. do 2 f_equal.
      set (h := hist i TR) in *. assert (take b h = take a h ++ drop a (take b h)) as Hb.
      { rewrite <- (take_drop a (take b h)) at 1. f_equal. rewrite take_take. f_equal. lia. }
      assert (h = take b h ++ drop b h) as Hh by (by rewrite take_drop).
      assert (Hf := po_few _ _ _ HP i s). fold h in Hf. rewrite Hh, cmds_in_app, app_length in Hf.
      rewrite Hb, cmds_in_app in E |- *. rewrite Hb, cmds_in_app in Hf. rewrite app_length in E, Hf.
      apply i64_inj_le in E; [|lia|lia]. destruct (cmds_in d s (drop a (take b h))) as [|c l]; [by rewrite app_nil_r|]. cbn [length] in E. lia. }
    intros E. destruct (decide (k1 ≤ k2)%nat); [by apply G|]. symmetry. apply G; [lia|done].
  Qed.
  Lemma sys_honest ops : sys ff d P zone TR ops → serials_honest ops.
  Proof using Hff H64 Hd HP.
    intros HS key x1 x2 (r1 & a1 & b1 & Hr1 & Hu1 & H1) (r2 & a2 & b2 & Hr2 & Hu2 & H2) Hser.
    destruct (sys_shapes _ _ HS (reflexivity _) _ _ _ Hr1 Hu1) as (i1 & k1 & S1). destruct (sys_shapes _ _ HS (reflexivity _) _ _ _ Hr2 Hu2) as (i2 & k2 & S2).
    apply (shape_reports _ _ _ _ _ S1) in H1 as (s1 & _ & -> & ->). apply (shape_reports _ _ _ _ _ S2) in H2 as (s2 & _ & -> & E).
    apply apart in E as [<- <-]. by apply content_serial.
  Qed.
  Lemma sys_pos ops x : sys ff d P zone TR ops → conf_dur ops = Some x → 0 < x.
  Proof using Hff H64 Hd HP. intros HS E. by apply (sys_conf _ _ _ HS (reflexivity _)) in E as ->. Qed.
  Lemma sys_undropped tr ops s k : sys ff d P zone tr ops → tr `prefix_of` TR → kept d s TR → k.1 = s → undropped ops k.
  Proof using Hff H64 Hd HP.
    intros HS Hpre Hkept Hs. induction HS as [|tr ops i t o HS IH|tr ops i k' t out msg code body loc nanos x part w s' ts stack w' r t1 t2 HS IH Hk Hg Hsv Hz Hp
      |tr ops r t1 t2 HS IH Hu|tr ops now HS IH|tr ops o HS IH]; intros ops1 now0 ops2 key dd E Hkey Hl.
    - by destruct ops1.
    - eapply IH; eauto. etrans; [|exact Hpre]. by apply prefix_app_r.
    - destruct ops2 as [|y ops2 _] using rev_ind; [by apply app_inj_tail in E as [_ ?]|].
      rewrite app_comm_cons, app_assoc in E. apply app_inj_tail in E as [-> _].
      eapply IH; eauto. etrans; [|exact Hpre]. by apply prefix_app_r.
    - destruct ops2 as [|y ops2 _] using rev_ind; [by apply app_inj_tail in E as [_ ?]|].
      rewrite app_comm_cons, app_assoc in E. apply app_inj_tail in E as [-> _].
      eapply IH; eauto. etrans; [|exact Hpre]. by apply prefix_app_r.
    - destruct ops2 as [|y ops2 _] using rev_ind.
      + apply app_inj_tail in E as [-> [= <-]]. unfold expires.
        destruct (latest_resp_usable _ _ _ Hl) as (r & u1 & u2 & Hin & Hu).
        assert (Hcf := usable_conf _ _ _ _ Hin Hu). destruct (conf_dur ops1) as [y|] eqn:Ey; [|done]. clear Hcf.
        assert (tr `prefix_of` TR) as Hpre1 by (etrans; [|exact Hpre]; by apply prefix_app_r).
        apply (sys_conf _ _ _ HS Hpre1) in Ey as ->. cbn.
        assert (since (now key) s ≤ w64 (d * 5)); [|rewrite Hkey, Hs; lia]. apply Hkept; [|by rewrite Hkey].
        destruct Hpre as [tr' ->]. apply elem_of_app. left. apply elem_of_app. right. left.
      + rewrite app_comm_cons, app_assoc in E. apply app_inj_tail in E as [-> _].
        eapply IH; eauto. etrans; [|exact Hpre]. by apply prefix_app_r.
    - destruct ops2 as [|y ops2 _] using rev_ind; [by apply app_inj_tail in E as [_ ?]|].
      rewrite app_comm_cons, app_assoc in E. apply app_inj_tail in E as [-> _].
      eapply IH; eauto. etrans; [|exact Hpre]. by apply prefix_app_r.
  Qed.

  Lemma content_int64 i k s : int64_ia (d_ia (content i k s)).
  Proof using HP.
    unfold content. cbn. apply int64_wire, int64_ia_of. intros c Hc. apply elem_of_cmds_in in Hc as [u Hu].
    assert ((u, OpCmd c) ∈ hist i TR) as Hin by (eapply elem_of_take in Hu as (?&?&_); by eapply elem_of_list_lookup_2).
    destruct (po_hist _ _ _ HP i _ _ Hin) as (Hok & _). specialize (Hok c eq_refl). destruct c; cbn in *; tauto.
  Qed.
  Lemma content_ctr c i k s : ctr_val c (d_ia (content i k s)) = w64 (tally c (cmds_in d s (take k (hist i TR)))).
  Proof. unfold content. cbn. by rewrite ctr_wire, ctr_ia_of. Qed.

  Lemma heard_list s (l : list (hkey * dagg)) :
    (∀ key x, (key, x) ∈ l → ∃ i k, heard1 TR i s k ∧ key = key_of i s ∧ x = content i k s) →
    ∃ l', Forall2 (λ (kx : hkey * dagg) (ik : nat * nat), heard1 TR ik.1 s ik.2 ∧ kx = (key_of ik.1 s, content ik.1 ik.2 s)) l l'.
  Proof.
    induction l as [|[key x] l IH]; intros Hl; [by exists []|].
    destruct IH as [l' Hl']; [intros key' x' Hin; apply Hl; by right|].
    destruct (Hl key x) as (i & k & Hh & -> & ->); [left|]. exists ((i, k) :: l'). by constructor.
  Qed.
  Lemma zsum_w64 {A} (f : A → Z) l : w64 (zsum (map (λ x, w64 (f x)) l)) = w64 (zsum (map f l)).
  Proof.
    induction l as [|x l IH]; [done|]. cbn. rewrite w64_add_l. unfold zsum in IH. rewrite <- w64_add_r, IH, w64_add_r. done.
  Qed.

  Lemma heard_heard1 i s k : heard d P TR i s k ↔ heard1 TR i s k.
  Proof. done. Qed.

  Lemma system_detail hosts ops o s st p :
    sys ff d P zone TR (ops ++ [HRecalc o]) → hrun (hd_init hosts) (ops ++ [HRecalc o]) (Ok st) → kept d s TR →
    p ∈ hd_pub st → pa_time p = (s, zone) →
    ∃ l, NoDup (map fst l) ∧ (∀ i k, (i, k) ∈ l ↔ heard d P TR i s k) ∧
      pa_ia p = merge_all s (map (λ ik : nat * nat, d_ia (content ik.1 ik.2 s)) l).
  Proof using Hff H64 Hd HP.
    intros HS HR Hkept Hp Hpt.
    assert (Hset : settled (ops ++ [HRecalc o]) st (s, zone)).
    { eapply settled_reach; [exact HR|by apply sys_honest|intros x; by apply sys_pos|by eapply sys_undropped|].
      apply hrun_snoc in HR as (m & _ & _ & H3). apply recalc_host in H3 as (_ & -> & _). set_solver. }
    destruct Hset as [S1 _]. destruct (S1 p Hp Hpt) as (L & [L1 L2] & L3).
    destruct (heard_list s L) as [l Hl].
    { intros key x Hin. apply L2 in Hin as [Hin Hk]. apply (latest_heard _ _ HS (reflexivity _) s Hkept) in Hin; [done|by rewrite Hk]. }
    exists l. split; [|split].
    - assert (map fst L = map (λ i, key_of i s) (map fst l)) as E.
      { clear -Hl. induction Hl as [|x y L l [_ Hx] _ IH]; [done|]. cbn. f_equal; [by rewrite Hx|done]. }
      rewrite E in L1. by apply NoDup_fmap_1 in L1.
    - intros i k. rewrite heard_heard1. split.
      + intros Hin. apply elem_of_list_lookup in Hin as [n Hn]. destruct (Forall2_lookup_r _ _ _ _ _ Hl Hn) as (x & _ & Hh & _). done.
      + intros Hh. assert ((key_of i s, content i k s) ∈ L) as Hin.
        { apply L2. split; [|done]. apply (latest_heard _ _ HS (reflexivity _) s Hkept); [done|]. eauto. }
        apply elem_of_list_lookup in Hin as [n Hn]. destruct (Forall2_lookup_l _ _ _ _ _ Hl Hn) as ([i' k'] & Hy & Hh' & E). cbn in *.
        injection E as E1 E2 _. assert (i = i') as <- by (by apply (po_apart _ _ _ HP)).
        rewrite (heard_fun _ _ _ _ _ Hh Hh'). by eapply elem_of_list_lookup_2.
    - rewrite L3. cbn [fst]. f_equal. clear -Hl.
      induction Hl as [|x y L l [_ Hx] _ IH]; [done|]. cbn. f_equal; [|done]. by rewrite Hx.
  Qed.
  Lemma system_published hosts ops o s st p :
    sys ff d P zone TR (ops ++ [HRecalc o]) → hrun (hd_init hosts) (ops ++ [HRecalc o]) (Ok st) → kept d s TR →
    p ∈ hd_pub st → pa_time p = (s, zone) →
    ∃ l, NoDup (map fst l) ∧ (∀ i k, (i, k) ∈ l ↔ heard d P TR i s k) ∧
      ∀ c, ctr_val c (pa_ia p) = w64 (zsum (map (λ ik : nat * nat, tally c (cmds_in d s (take ik.2 (hist ik.1 TR)))) l)).
  Proof using Hff H64 Hd HP.
    intros HS HR Hkept Hp Hpt. destruct (system_detail _ _ _ _ _ _ HS HR Hkept Hp Hpt) as (l & L1 & L2 & L3).
    exists l. split; [done|]. split; [done|]. intros c. rewrite L3. edestruct (merge_all_ctr c) as [-> _].
    { intros x Hx. apply elem_of_list_fmap in Hx as (y & -> & Hy). apply content_int64. }
    rewrite <- (zsum_w64 (λ ik : nat * nat, tally c (cmds_in d s (take ik.2 (hist ik.1 TR))))). f_equal. f_equal. rewrite map_map.
    apply map_ext. intros y. apply content_ctr.
  Qed.
  Lemma system_int64 hosts ops o s st p :
    sys ff d P zone TR (ops ++ [HRecalc o]) → hrun (hd_init hosts) (ops ++ [HRecalc o]) (Ok st) → kept d s TR →
    p ∈ hd_pub st → pa_time p = (s, zone) → int64_ia (pa_ia p).
  Proof using Hff H64 Hd HP.
    intros HS HR Hkept Hp Hpt. destruct (system_detail _ _ _ _ _ _ HS HR Hkept Hp Hpt) as (l & L1 & L2 & ->).
    apply (merge_all_ctr (KTop (KEvents ""))). intros x Hx. apply elem_of_list_fmap in Hx as (y & -> & Hy). apply content_int64.
  Qed.
  Lemma system_zone hosts ops st p :
    sys ff d P zone TR ops → hrun (hd_init hosts) ops (Ok st) → p ∈ hd_pub st → pa_time p = (ia_start (pa_ia p), zone).
  Proof using Hff H64 Hd HP.
    intros HS HR Hp. destruct (pub_reported _ _ _ _ HR (λ x, sys_pos _ x HS) Hp) as (key & y & (r & t1 & t2 & Hin & Hu & Hy) & Ht).
    destruct (sys_shapes _ _ HS (reflexivity _) _ _ _ Hin Hu) as (i & k & Hsh). apply (shape_reports _ _ _ _ _ Hsh) in Hy as (s & _ & _ & ->).
    cbn in Ht. unfold pa_time in *. by injection Ht as <- <-.
  Qed.

  (** an answer given after the end of the interval has all of it *)
  Lemma late_all i k s t : hist i TR !! k = Some (t, OpRead) → s + d ≤ t → cmds_in d s (take k (hist i TR)) = cmds_in d s (hist i TR).
  Proof using HP.
    intros Hk Ht. assert (Hc := po_clock _ _ _ HP i). set (h := hist i TR) in *.
    rewrite <- (take_drop k h) at 2. rewrite cmds_in_app.
    assert (cmds_in d s (drop k h) = []) as ->; [|by rewrite app_nil_r].
    assert (∀ x, x ∈ drop k h → t ≤ x.1) as Hge.
    { rewrite (drop_S _ _ _ Hk). intros x Hx. apply elem_of_cons in Hx as [->|Hx]; [done|].
      unfold clock_monotone in Hc. rewrite <- (take_drop k h), (drop_S _ _ _ Hk), map_app in Hc. cbn [map] in Hc.
      apply StronglySorted_app_inv_r in Hc. apply StronglySorted_inv in Hc as [_ Hc]. rewrite Forall_forall in Hc.
      apply Hc. apply elem_of_list_fmap. eauto. }
    destruct (cmds_in d s (drop k h)) as [|c l] eqn:E; [done|]. exfalso.
    assert (c ∈ cmds_in d s (drop k h)) as Hin by (rewrite E; left). unfold cmds_in in Hin. apply elem_of_list_omap in Hin as ([u o] & Hin & Hm).
    apply Hge in Hin. cbn in *. destruct o; try done. case_bool_decide; [|done]. lia.
  Qed.
  Lemma system_whole hosts ops o s st p :
    sys ff d P zone TR (ops ++ [HRecalc o]) → hrun (hd_init hosts) (ops ++ [HRecalc o]) (Ok st) → kept d s TR →
    p ∈ hd_pub st → pa_time p = (s, zone) →
    (∀ i k, heard d P TR i s k → ∃ t, hist i TR !! k = Some (t, OpRead) ∧ s + d ≤ t) →
    ∃ l, NoDup l ∧ (∀ i, i ∈ l ↔ ∃ k, heard d P TR i s k) ∧
      ∀ c, ctr_val c (pa_ia p) = w64 (zsum (map (λ i, tally c (cmds_in d s (hist i TR))) l)).
  Proof using Hff H64 Hd HP.
    intros HS HR Hkept Hp Hpt Hlate. destruct (system_published _ _ _ _ _ _ HS HR Hkept Hp Hpt) as (l & L1 & L2 & L3).
    exists (map fst l). split; [done|]. split.
    - intros i. rewrite elem_of_list_fmap. split.
      + intros ([i' k] & -> & Hin). exists k. by apply L2.
      + intros [k Hk]. exists (i, k). split; [done|]. by apply L2.
    - intros c. rewrite L3. f_equal. f_equal. rewrite map_map. apply map_ext_in. intros [i k] Hin. cbn [fst snd].
      apply elem_of_list_In, L2 in Hin. destruct (Hlate _ _ Hin) as (t & Ht & Hle). by rewrite (late_all i k s t).
  Qed.

  Lemma system_covered hosts ops o s st i k :
    sys ff d P zone TR (ops ++ [HRecalc o]) → hrun (hd_init hosts) (ops ++ [HRecalc o]) (Ok st) → kept d s TR →
    heard d P TR i s k →
    (∃ p, p ∈ hd_pub st ∧ pa_time p = (s, zone)) ∨
    (Z.of_nat (length (hd_pub st)) = hd_retain `div` d ∧ ∀ q, q ∈ hd_pub st → s ≤ ia_start (pa_ia q)).
  Proof using Hff H64 Hd HP.
    intros HS HR Hkept Hh.
    assert (Hset : settled (ops ++ [HRecalc o]) st (s, zone)).
    { eapply settled_reach; [exact HR|by apply sys_honest|intros x; by apply sys_pos|by eapply sys_undropped|].
      apply hrun_snoc in HR as (m & _ & _ & H3). apply recalc_host in H3 as (_ & -> & _). set_solver. }
    destruct Hset as [_ S2].
    assert (is_latest (ops ++ [HRecalc o]) (key_of i s) (content i k s)) as Hl.
    { apply (latest_heard _ _ HS (reflexivity _) s Hkept); [done|]. exists i, k. done. }
    destruct (S2 _ _ Hl eq_refl) as [?|[Hlen Hq]]; [by left|]. right. split; [|done]. rewrite Hlen.
    assert (Hc := conf_reach _ _ _ HR). unfold conf_inv in Hc.
    destruct (latest_resp_usable _ _ _ Hl) as (r & u1 & u2 & Hin & Hu).
    assert (Hcf := usable_conf _ _ _ _ Hin Hu). destruct (conf_dur (ops ++ [HRecalc o])) as [y|] eqn:Ey; [|done].
    apply (sys_conf _ _ _ HS (reflexivity _)) in Ey as ->. destruct Hc as (_ & _ & ->). apply Z.quot_div_nonneg; [done|lia].
  Qed.
  Lemma system_safe hosts ops why : sys ff d P zone TR ops → ¬ hrun (hd_init hosts) ops (Crash why).
  Proof using Hff H64 Hd HP.
    intros HS. apply never_crashes. intros r t1 t2 Hin Hu. destruct (sys_shapes _ _ HS (reflexivity _) _ _ _ Hin Hu) as (i & k & _ & _ & _ & -> & ->).
    split; [done|]. intros x Hx. apply elem_of_list_fmap in Hx as (s & -> & _). eexists. done.
  Qed.
  Lemma system_answers ops i k t (loc : nat → Z → N) w s st t1 t2 : sys ff d P zone TR ops → hist i TR !! k = Some (t, OpRead) →
    (∀ n u, loc n (p_off (P i) u) = zone) → reachable w → w_streams w !! s = Some st →
    ∃ r, usable r ∧ sys ff d P zone (TR ++ [SRecv i k]) (ops ++ [HResp r t1 t2]).
  Proof using Hff H64 Hd HP.
    intros HS Hk Hz Hw Hs. assert (Hsk := take_S_r _ _ _ Hk).
    assert (Hmono : clock_monotone (take k (hist i TR) ++ [(t, OpRead)])).
    { apply (clock_monotone_app _ (drop (S k) (hist i TR))). rewrite <- Hsk, take_drop. apply HP. }
    assert (Hg := get_metrics_eq d (p_retain (P i)) _ t Hd (po_retain _ _ _ HP i) Hmono).
    set (out := map _ _) in Hg. clearbody out.
    destruct (thm_end_to_end ff (p_off (P i)) "" (p_inst (P i)) d (p_retain (P i)) (take k (hist i TR)) t out loc 200 5 ENil (Reply "" 0 [])) as (body & B1 & B2); try done.
    { apply HP. } { apply HP. }
    { intros u o Hin. apply (po_hist _ _ _ HP i). rewrite <- Hsk in Hin. by eapply elem_of_take in Hin as (?&?&_); eapply elem_of_list_lookup_2. }
    destruct (thm_poll_ok w s (p_hp (P i)) 7 200 5 (Reply (p_inst (P i)) d (wire_ias (p_off (P i)) loc out)) [] st Hw Hs) as (w' & cs & Hp & _).
    eexists. split; [|eapply (sys_recv _ _ _ _ _ _ i k t out "" 200 body loc 5 ENil (Reply "" 0 []) w s 7 [] w'); try done; rewrite B2; exact Hp]. done.
  Qed.
End system.
