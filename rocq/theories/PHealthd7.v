(** * Proofs about healthd's aggregation state, part 7: counts of intervals
    that expire once nothing more is reported for them *)
From Verif Require Import SHealthd SHealthd2 PHealthd PHealthd2 PHealthd3 PHealthd4 PHealthd5.

Lemma settled_step hosts tra o trb op s s' p :
  hrun (hd_init hosts) (tra ++ HRecalc o :: trb) (Ok s) → well_formed (tra ++ HRecalc o :: trb) →
  hop_ok s op → hstep s op = Ok s' → p ∈ hd_pub s' → (∀ key d, reported trb key d → key_time key ≠ pa_time p) → p ∈ hd_pub s.
Proof.
  intros H Hw Ho Hs Hp Hn. destruct op as [r t1 t2|now|o'].
  - cbn in Hs. unfold consume in Hs. destruct resp_good; [|by injection Hs as <-].
    destruct (hd_dur s =? 0).
    + destruct (r_dur r =? 0); [done|]. destruct consume_aggs; cbn in Hs; [|done]. by injection Hs as <-.
    + destruct (hd_dur s =? r_dur r); [|by injection Hs as <-]. destruct consume_aggs; cbn in Hs; [|done]. by injection Hs as <-.
  - cbn in Hs. apply purge_host in Hs as (_ & _ & _ & _ & _ & Ht). apply truncate_ok in Ht as (n & E & _).
    rewrite E in Hp. apply elem_of_list_lookup in Hp as [i Hp]. rewrite lookup_drop in Hp. by apply elem_of_list_lookup_2 in Hp.
  - exact (t_kept _ _ _ _ _ _ _ _ H Hw Ho Hs Hp Hn).
Qed.

Lemma reported_app1 tr1 tr2 key d : reported tr1 key d → reported (tr1 ++ tr2) key d.
Proof. intros (r & t1 & t2 & H & ?). exists r, t1, t2. split; [|done]. apply elem_of_app. by left. Qed.

Lemma settled_pub hosts tra o trb p : ∀ trc s s',
  hrun (hd_init hosts) (tra ++ HRecalc o :: trb) (Ok s) → hrun s trc (Ok s') →
  well_formed ((tra ++ HRecalc o :: trb) ++ trc) →
  (∀ key d, reported (trb ++ trc) key d → key_time key ≠ pa_time p) → p ∈ hd_pub s' → p ∈ hd_pub s.
Proof.
  intros trc. induction trc as [|op trc IH] using rev_ind; intros s s' H1 H2 Hw Hn Hp.
  - by inversion H2; subst.
  - apply hrun_snoc in H2 as (m & H2 & Ho & Hs).
    assert (hrun (hd_init hosts) (tra ++ HRecalc o :: (trb ++ trc)) (Ok m)) as Hm.
    { change (HRecalc o :: trb ++ trc) with ((HRecalc o :: trb) ++ trc). rewrite app_assoc. apply hrun_app. eauto. }
    assert (∀ key d, reported (trb ++ trc) key d → key_time key ≠ pa_time p) as Hn'.
    { intros key d Hr. apply (Hn key d). rewrite app_assoc. by apply reported_app1. }
    assert (well_formed ((tra ++ HRecalc o :: trb) ++ trc)) as Hw'.
    { intros r t1 t2 Hr. apply (Hw r t1 t2). rewrite app_assoc. apply elem_of_app. by left. }
    apply (IH s m H1 H2 Hw' Hn'). refine (settled_step _ _ _ _ _ _ _ _ Hm _ Ho Hs Hp Hn').
    by rewrite <-app_assoc in Hw'.
Qed.

Lemma honest_prefix tr1 tr2 : serials_honest (tr1 ++ tr2) → serials_honest tr1.
Proof. intros H key d1 d2 H1 H2. apply (H key); by apply reported_app1. Qed.
Lemma wf_prefix tr1 tr2 : well_formed (tr1 ++ tr2) → well_formed tr1.
Proof. intros H r t1 t2 Hr. apply (H r t1 t2). apply elem_of_app. by left. Qed.
Lemma growing_prefix tr1 tr2 k c : growing (tr1 ++ tr2) k c → growing tr1 k c.
Proof.
  intros H key Hk. specialize (H key Hk). unfold reports_key in H. rewrite map_app, concat_app in H.
  by apply StronglySorted_app_inv_l in H.
Qed.
Lemma sane_prefix tr1 tr2 c : sane_reports (tr1 ++ tr2) c → sane_reports tr1 c.
Proof. intros H key d Hr. apply (H key d). by apply reported_app1. Qed.
Lemma fit_prefix tr1 tr2 k c : sums_fit (tr1 ++ tr2) k c → sums_fit tr1 k c.
Proof. intros H a b l ->. apply (H a (b ++ tr2) l). by rewrite app_assoc. Qed.

Lemma never_recalc tr o k : never_expires tr k → never_expires (tr ++ [HRecalc o]) k.
Proof.
  intros H tr1 now tr2 key E. destruct tr2 as [|op tr2 _] using rev_ind.
  - by apply app_inj_tail in E as [_ ?].
  - rewrite app_comm_cons, app_assoc in E. apply app_inj_tail in E as [E _]. by apply (H tr1 now tr2 key).
Qed.

Lemma t_grows_settled hosts tr1 tr2 s1 s2 p1 p2 c :
  hrun (hd_init hosts) tr1 (Ok s1) → hrun s1 tr2 (Ok s2) →
  serials_honest (tr1 ++ tr2) → well_formed (tr1 ++ tr2) →
  p1 ∈ hd_pub s1 → p2 ∈ hd_pub s2 → pa_time p1 = pa_time p2 →
  expires_settled (tr1 ++ tr2) (pa_time p1) → growing (tr1 ++ tr2) (pa_time p1) c →
  sane_reports (tr1 ++ tr2) c → sums_fit (tr1 ++ tr2) (pa_time p1) c →
  ctr_val c (pa_ia p1) ≤ ctr_val c (pa_ia p2).
Proof.
  intros H1 H2 Hh Hw P1 P2 Ht He Hg Hs Hf. destruct He as [He|(tra & o & trc & E & He & Hn)].
  { by apply (t_grows hosts tr1 tr2 s1 s2). }
  apply (never_recalc _ o) in He.
  change (HRecalc o :: trc) with ([HRecalc o] ++ trc) in E. rewrite app_assoc in E.
  set (tq := tra ++ [HRecalc o]) in *.
  assert (E' := E). apply app_eq_inv in E' as [(y & Ey & Ez)|(x & Ex & Ez)].
  - (* settled before the first publication *)
    rewrite Ey in H1. apply hrun_app in H1 as (m & Hm & H1).
    assert (p1 ∈ hd_pub m) as Q1.
    { refine (settled_pub _ _ _ _ _ _ _ _ Hm H1 _ _ P1).
      - apply (wf_prefix _ tr2). fold tq. by rewrite <-Ey.
      - intros key d Hr. apply (Hn key d). rewrite Ez. by apply reported_app1. }
    assert (p2 ∈ hd_pub m) as Q2.
    { refine (settled_pub _ _ _ _ _ trc _ s2 Hm _ _ _ P2).
      - rewrite Ez. apply hrun_app. eauto.
      - fold tq. by rewrite <-E.
      - by rewrite <-Ht. }
    destruct (t_bounded _ _ _ Hm) as (_ & Hnd & _). { apply (wf_prefix _ trc). by rewrite <-E. }
    assert (p1 = p2) as ->; [|done].
    apply elem_of_list_lookup in Q1 as [i Q1], Q2 as [j Q2].
    assert (i = j) as ->.
    { apply (NoDup_lookup (map pa_time (hd_pub m)) i j (pa_time p1) Hnd).
      - change (map pa_time (hd_pub m)) with (pa_time <$> hd_pub m). by rewrite list_lookup_fmap, Q1.
      - change (map pa_time (hd_pub m)) with (pa_time <$> hd_pub m). rewrite list_lookup_fmap, Q2. cbn. by rewrite Ht. }
    congruence.
  - rewrite Ez in H2. apply hrun_app in H2 as (m & Hm & H2).
    assert (hrun (hd_init hosts) tq (Ok m)) as Hq. { rewrite Ex. apply hrun_app. eauto. }
    assert (p2 ∈ hd_pub m) as Q2.
    { refine (settled_pub _ _ _ _ _ trc _ s2 Hq H2 _ _ P2).
      - fold tq. by rewrite <-E.
      - by rewrite <-Ht. }
    rewrite Ez, app_assoc in Hh, Hw, Hg, Hs, Hf.
    apply (t_grows hosts tr1 x s1 m); try done.
    + by eapply honest_prefix.
    + by eapply wf_prefix.
    + by rewrite <-Ex.
    + by eapply growing_prefix.
    + by eapply sane_prefix.
    + by eapply fit_prefix.
Qed.
