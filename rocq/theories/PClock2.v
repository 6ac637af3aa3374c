(** * healthd and a sink whose clock steps back *)
From Verif Require Import SApi SFloat2 SSystem SClock PFloat3 PAgg PContent PContent2 PAgg2 PHealthd PKeep PWire2 PWire3 PSystem PClock.

(** ** any clock: what is served arrives *)
Lemma vis_elem d h s g x : (s, g) ∈ vis d h → x ∈ g → x ∈ h.
Proof.
  intros H Hx. rewrite <- (vi_all _ _ _ (vis_visits d h)). apply elem_of_list_In, in_concat. exists g.
  split; [|by apply elem_of_list_In]. apply in_map_iff. exists (s, g). split; [done|by apply elem_of_list_In].
Qed.
Lemma sink_ok_any P off d retain h t out : 0 < d → d ≤ retain →
  get_metrics d retain h t = Ok out → history_ok P off d (h ++ [(t, OpRead)]) → Forall (ia_ok P off) out.
Proof.
  intros Hd Hr E Hh. pose proof (sink_pre _ _ _ _ _ _ _ E Hh) as Hp. apply Forall_forall. intros i Hi. rewrite Forall_forall in Hp.
  destruct (Hp i Hi) as (H1&H2&H3&H4&H5). clear Hp.
  assert (∃ s L, i = ia_of s L ∧ ∀ c, c ∈ L → nanos_int64 c) as (s & L & -> & HL).
  { rewrite get_metrics_visits in E by done. injection E as <-. unfold ints_of in Hi. apply elem_of_list_fmap in Hi as ([s g] & -> & Hv).
    exists s, (hist_cmds g). split; [done|]. intros c Hc. unfold hist_cmds in Hc. apply elem_of_list_omap in Hc as ([u o] & Hu & Ho).
    apply elem_of_lastn in Hv. pose proof (vis_elem _ _ _ _ _ Hv Hu) as Hin. destruct o; try done. injection Ho as ->.
    pose proof (history_int64 _ _ _ _ Hh _ Hin) as X. cbn in X. by destruct c. }
  destruct (isl_of s L HL) as [M J].
  assert (Ht : ∀ f l, tsl 180 0 f l → good_ss (3 + length l) f l).
  { intros f l Hl. unfold tsl in Hl. rewrite Nat.add_0_r in Hl. by eapply ss_ok_good. }
  assert (HT : ∀ tm, timer_pre tm → (∃ k l, good_ss k (t_ss tm) l) → timer_ok tm).
  { intros tm (A&B&C&D) (k&l&_&V&F&_). done. }
  assert (HM : ∀ m, maps_pre P m → (∀ e tm, am_timers m !! e = Some tm → ∃ k l, good_ss k (t_ss tm) l) → maps_ok P m).
  { intros m (A&B&C&D) Hs. split; [|done]. intros e tm Htm. destruct (A e tm Htm) as [? ?]. split; [done|]. apply HT; [done|]. by eapply Hs. }
  split_and!; try done.
  - intros k j Hk. destruct (H4 k j Hk) as [Hn (A&B&C)]. specialize (J k). rewrite Hk in J. destruct J as [JM JT]. split; [done|]. split; [|split; [|done]].
    + apply HM; [done|]. intros e tm Htm. specialize (JM e). rewrite Htm in JM. do 2 eexists. by apply Ht.
    + apply HT; [done|]. do 2 eexists. by apply Ht.
  - apply HM; [done|]. intros e tm Htm. specialize (M e). rewrite Htm in M. do 2 eexists. by apply Ht.
Qed.
Lemma thm_end_to_end_any ff off msg inst d retain h t out loc code nanos x part :
  float_codec ff → good_name inst → in_int64 d → 0 < d → d ≤ retain →
  get_metrics d retain h t = Ok out → history_ok good_name off d (h ++ [(t, OpRead)]) →
  ∃ body, serve_health ff off msg "/health" inst d out = (200, body) ∧
    fetch_of loc code nanos x part body = FReply code nanos (Reply inst d (wire_ias off loc out)).
Proof. intros Hff Hi H64 Hd Hr E Hh. apply thm_round_trip; try done. by eapply sink_ok_any. Qed.

(** ** healthd takes the answer *)
Lemma hrun_det tr : ∀ s a b, hrun s tr (Ok a) → hrun s tr (Ok b) → a = b.
Proof.
  induction tr as [|op tr IH]; intros s a b Ha Hb.
  - inversion Ha; inversion Hb; congruence.
  - apply hrun_cons in Ha as (x & _ & Ex & Ha). apply hrun_cons in Hb as (y & _ & Ey & Hb). rewrite Ex in Ey. injection Ey as <-. by eapply IH.
Qed.
Section taken.
  Context (ff : f64 → string) (off : Z → Z) (inst hp : string) (d retain : Z) (zone : N).
  Context (Hff : float_codec ff) (Hinst : good_name inst) (H64 : in_int64 d) (Hd : 0 < d) (Hr : d ≤ retain).
  Definition report (v : Z * list (Z * aop)) : dagg := DAgg zone (wire_ia (ia_of v.1 (hist_cmds v.2))) false.

  Lemma taken_shape h t out msg code body loc nanos x part w s ts stack w' r :
    history_ok good_name off d (h ++ [(t, OpRead)]) → get_metrics d retain h t = Ok out →
    serve_health ff off msg "/health" inst d out = (code, body) → (∀ n u, loc n (off u) = zone) →
    poll w s hp ts (fetch_of loc code nanos x part body) stack = Ok (w', r) →
    r_hp r = hp ∧ r_inst r = inst ∧
    r_aggs r = map (λ v, Some (report v)) (lastn (Z.to_nat (retain `div` d)) (vis d (h ++ [(t, OpRead)]))).
  Proof using Hff Hinst H64 Hd Hr.
    intros Hh Hg Hsv Hz Hpoll.
    destruct (thm_end_to_end_any ff off msg inst d retain h t out loc 200 nanos x part) as (body' & B1 & B2); try done.
    rewrite Hsv in B1. injection B1 as -> ->. rewrite B2 in Hpoll. apply poll_reply in Hpoll as ->. cbn.
    split; [done|]. split; [done|]. rewrite (wire_const _ _ zone) by done.
    rewrite get_metrics_visits in Hg by done. injection Hg as <-. unfold ints_of. rewrite map_map, Z.quot_div_nonneg by lia. done.
  Qed.
  Lemma rl_visits vs s : rl inst hp (map (λ v, Some (report v)) vs) ((s, zone), inst, hp) = map report (filter (λ v, v.1 = s) vs).
  Proof using Type.
    induction vs as [|v vs IH]; [done|]. cbn [map]. assert (d_time (report v) = (v.1, zone)) as Ht by (unfold d_time; cbn; by rewrite ia_of_start).
    rewrite filter_cons. destruct (decide (v.1 = s)) as [E|E].
    - rewrite rl_cons_eq by (rewrite Ht; by rewrite E). by rewrite IH.
    - rewrite rl_cons_ne; [done|]. rewrite Ht. intros [= X]. done.
  Qed.
  Lemma emissions_filter s vs : emissions_at s vs = map (λ v, hist_cmds v.2) (filter (λ v, v.1 = s) vs).
  Proof using Type.
    induction vs as [|v vs IH]; [done|]. unfold emissions_at in *. cbn [omap list_omap]. rewrite filter_cons.
    destruct (decide (v.1 = s)); cbn [map]; by rewrite IH.
  Qed.
  Lemma report_serial v : ia_serial (d_ia (report v)) = i64 (length (hist_cmds v.2)).
  Proof using Type. unfold report. cbn. apply ia_of_serial. Qed.

  Lemma thm_one_visit h t vs out msg code body loc nanos x part w s ts stack w' r hosts ops t1 t2 st0 st i :
    history_ok good_name off d (h ++ [(t, OpRead)]) → visits d (h ++ [(t, OpRead)]) vs → get_metrics d retain h t = Ok out →
    serve_health ff off msg "/health" inst d out = (code, body) → (∀ n u, loc n (off u) = zone) →
    poll w s hp ts (fetch_of loc code nanos x part body) stack = Ok (w', r) →
    hrun (hd_init hosts) ops (Ok st0) → counted ops r → hd_host st0 !! ((i, zone), inst, hp) = None →
    hrun (hd_init hosts) (ops ++ [HResp r t1 t2]) (Ok st) →
    let gs := emissions_at i (lastn (Z.to_nat (retain `div` d)) vs) in
    match hd_host st !! ((i, zone), inst, hp) with
    | None => gs = []
    | Some y => ∃ g, left_of gs g ∧ ∀ c, ctr_val c (d_ia y) = w64 (tally c g)
    end.
  Proof using Hff Hinst H64 Hd Hr.
    intros Hh Hv Hg Hsv Hz Hpoll Hr0 Hct Hno Hrun gs. apply visits_vis in Hv as ->.
    destruct (taken_shape _ _ _ _ _ _ _ _ _ _ _ _ _ _ _ _ Hh Hg Hsv Hz Hpoll) as (Ehp & Ein & Ea).
    apply hrun_snoc in Hrun as (m & Hm & _ & Hs). assert (m = st0) as -> by (by eapply hrun_det). cbn in Hs.
    apply (consume_cases ops) in Hs as (_ & _ & _ & [[_ Hc]|[Hn _]]); [| |by eapply conf_reach]; [|done].
    apply (ca_fold _ _ _ _ _ _ _ ((i, zone), inst, hp)) in Hc. rewrite Hno, Ein, Ehp, Ea, rl_visits in Hc. unfold gs. rewrite emissions_filter. clear gs.
    destruct (filter _ _) as [|v0 l0] eqn:Ef. { cbn in Hc. by rewrite Hc. }
    destruct (keep_left (λ x, ia_serial (d_ia x)) (map report (v0 :: l0))) as (y & Ey & Hl); [done|]. rewrite Ey in Hc. rewrite Hc.
    apply (left_by_map report (λ v, i64 (length (hist_cmds v.2)))) in Hl as (v & (l1 & l2 & E & H1 & H2) & ->); [|apply report_serial].
    exists (hist_cmds v.2). split.
    - exists (map (λ v, hist_cmds v.2) l1), (map (λ v, hist_cmds v.2) l2). rewrite E, map_app. split; [done|]. split.
      + intros z Hz'. apply elem_of_list_fmap in Hz' as (u & -> & Hu). auto.
      + intros z Hz'. change (map ?f l1) with (f <$> l1) in Hz'. rewrite fmap_last in Hz'. destruct (last l1) as [u|] eqn:El; [|done]. injection Hz' as <-. auto.
    - intros c. unfold report. cbn [d_ia]. by rewrite ctr_wire, ctr_ia_of.
  Qed.
End taken.

(** ** the emissions of an interval are those of its visits *)
Lemma slot_in d s t : 0 < d → (∃ u, s = slot d u) → (slot d t = s ↔ s ≤ t < s + d).
Proof.
  intros Hd [u ->]. unfold slot. split.
  - intros E. rewrite <- E. pose proof (Z.mod_pos_bound t d Hd). pose proof (Z.div_mod t d). lia.
  - intros H. assert (t `div` d = u `div` d) as ->; [|done]. symmetry. apply (Z.div_unique t d _ (t - u `div` d * d)); lia.
Qed.
Lemma thm_visits_emitted d h vs s : 0 < d → (∃ u, s = slot d u) → visits d h vs → cmds_in d s h = concat (emissions_at s vs).
Proof.
  intros Hd Hs Hv. rewrite <- (vi_all _ _ _ Hv). pose proof (vi_in _ _ _ Hv) as Hin. clear Hv.
  induction vs as [|[s' g] vs IH]; [done|]. cbn [map concat snd]. unfold cmds_in in *. rewrite omap_app. rewrite IH by (intros; apply Hin; by right).
  destruct (Hin s' g) as [_ Hg]; [left|]. unfold emissions_at. cbn [omap list_omap fst snd].
  assert (∀ g0, (∀ x, x ∈ g0 → x ∈ g) → omap (λ to : Z * aop, match to.2 with OpCmd c => if bool_decide (s ≤ to.1 < s + d) then Some c else None | _ => None end) g0 =
    if decide (s' = s) then hist_cmds g0 else []) as E.
  { induction g0 as [|x g0 IHg]; intros H0; [by destruct decide|]. unfold hist_cmds in *. cbn [omap list_omap].
    rewrite IHg by (intros; apply H0; by right). pose proof (Hg x (H0 x ltac:(left))) as Hx.
    destruct (decide (s' = s)) as [->|Hne].
    - destruct (x.2); try done. rewrite bool_decide_true; [done|]. by apply slot_in.
    - destruct (x.2); try done. rewrite bool_decide_false; [done|]. rewrite <- slot_in by done. congruence. }
  rewrite E by done. destruct (decide (s' = s)); done.
Qed.
Lemma emissions_once s vs : NoDup (map fst vs) → s ∈ map fst vs → ∃ g, emissions_at s vs = [g].
Proof.
  assert (∀ vs, s ∉ map fst vs → emissions_at s vs = []) as H0.
  { clear. induction vs as [|v vs IH]; [done|]. cbn [map]. intros H. apply not_elem_of_cons in H as [H1 H2]. unfold emissions_at in *. cbn.
    rewrite decide_False by congruence. auto. }
  induction vs as [|v vs IH]; intros Hn Hs; [by apply elem_of_nil in Hs|]. cbn [map] in Hn, Hs. apply NoDup_cons in Hn as [Hv Hn].
  unfold emissions_at. cbn [omap list_omap]. change (omap _ vs) with (emissions_at s vs). destruct (decide (v.1 = s)) as [E|E].
  - subst s. rewrite H0 by done. eauto.
  - apply elem_of_cons in Hs as [->|Hs]; [done|]. auto.
Qed.
Lemma emissions_lastn n s vs : NoDup (map fst vs) → s ∈ map fst (lastn n vs) → emissions_at s (lastn n vs) = emissions_at s vs.
Proof.
  intros Hn Hs. unfold lastn in *. set (k := (length vs - n)%nat) in *. clearbody k. rewrite <- (take_drop k vs) in Hn |- * at 2. rewrite map_app in Hn.
  apply NoDup_app in Hn as (_ & Hx & _). unfold emissions_at. rewrite omap_app. 
  assert (omap (λ v : Z * list (Z * aop), if decide (v.1 = s) then Some (hist_cmds v.2) else None) (take k vs) = []) as ->; [|done].
  assert (s ∉ map fst (take k vs)) as H by (intros H; by apply (Hx s H)). clear -H. induction (take k vs) as [|v l IH]; [done|]. cbn [map] in H.
  apply not_elem_of_cons in H as [H1 H2]. cbn. rewrite decide_False by congruence. auto.
Qed.
Lemma left_of_one g g' : left_of [g] g' → g' = g.
Proof.
  intros (l1 & l2 & E & _). destruct l1 as [|x l1]; [by injection E as -> _|]. injection E as _ E. by destruct l1.
Qed.
Lemma left_of_nil g : ¬ left_of [] g.
Proof. intros (l1 & l2 & E & _). by destruct l1. Qed.
Lemma thm_visited_once ff off inst hp d retain zone h t vs out msg code body loc nanos x part w s ts stack w' r hosts ops t1 t2 st0 st i :
  float_codec ff → good_name inst → in_int64 d → 0 < d → d ≤ retain →
  history_ok good_name off d (h ++ [(t, OpRead)]) → visits d (h ++ [(t, OpRead)]) vs → get_metrics d retain h t = Ok out →
  serve_health ff off msg "/health" inst d out = (code, body) → (∀ n u, loc n (off u) = zone) →
  poll w s hp ts (fetch_of loc code nanos x part body) stack = Ok (w', r) →
  hrun (hd_init hosts) ops (Ok st0) → counted ops r → hd_host st0 !! ((i, zone), inst, hp) = None →
  hrun (hd_init hosts) (ops ++ [HResp r t1 t2]) (Ok st) →
  NoDup (map fst vs) → i ∈ map fst (lastn (Z.to_nat (retain `div` d)) vs) →
  ∃ y, hd_host st !! ((i, zone), inst, hp) = Some y ∧ ∀ c, ctr_val c (d_ia y) = w64 (tally c (cmds_in d i h)).
Proof.
  intros Hff Hin H64 Hd Hr Hh Hv Hg Hsv Hz Hp Hr0 Hct Hno Hrun Hnd Hi.
  pose proof (thm_one_visit ff off inst hp d retain zone Hff Hin H64 Hd Hr _ _ _ _ _ _ _ _ _ _ _ _ _ _ _ _ _ _ _ _ _ _ _ i Hh Hv Hg Hsv Hz Hp Hr0 Hct Hno Hrun) as H.
  cbn zeta in H. rewrite emissions_lastn in H by done.
  assert (i ∈ map fst vs) as Hi'. { apply elem_of_list_fmap in Hi as (v & -> & Hx). apply elem_of_list_fmap. exists v. split; [done|]. by eapply elem_of_lastn. }
  destruct (emissions_once i vs Hnd Hi') as [g Eg]. rewrite Eg in H. destruct (hd_host st !! _) as [y|]; [|done]. exists y. split; [done|].
  destruct H as (g' & Hl & Hc). apply left_of_one in Hl as ->. intros c. rewrite Hc. do 2 f_equal.
  assert (∃ u, i = slot d u) as Hu. { apply elem_of_list_fmap in Hi' as ([s0 g0] & -> & Hx). pose proof Hv as Hv'. apply visits_vis in Hv' as ->. by eapply vis_slot. }
  pose proof (thm_visits_emitted d _ vs i Hd Hu Hv) as E. rewrite Eg in E. cbn in E. rewrite app_nil_r in E. rewrite <- E.
  unfold cmds_in. rewrite omap_app. cbn. by rewrite app_nil_r.
Qed.

(** ** sums of squares under any clock *)
Lemma thm_clock_ss d retain h t vs out : 0 < d → d ≤ retain → visits d (h ++ [(t, OpRead)]) vs →
  get_metrics d retain h t = Ok out → host_int64 h →
  Forall2 (λ v i, let cmds := hist_cmds v.2 in
    (∀ e tm, am_timers (ia_maps i) !! e = Some tm → let l := timings_of e cmds in good_ss (3 + length l) (t_ss tm) l) ∧
    (∀ j ja, ia_jobs i !! j = Some ja →
       (∀ e tm, am_timers (j_maps ja) !! e = Some tm → let l := timings_of e (of_job j cmds) in good_ss (3 + length l) (t_ss tm) l) ∧
       (let l := map snd (completions_of (of_job j cmds)) in good_ss (3 + length l) (t_ss (j_timer ja)) l)))
    (lastn (Z.to_nat (retain `div` d)) vs) out.
Proof.
  intros Hd Hr Hv Hg Hi. apply visits_vis in Hv as ->. rewrite get_metrics_visits in Hg by done. injection Hg as <-.
  rewrite Z.quot_div_nonneg by lia. unfold ints_of. apply Forall2_fmap_r. apply Forall_Forall2_diag.
  apply Forall_forall. intros [s g] H. apply elem_of_lastn in H. unfold compose. cbn [fst snd]. set (cmds := hist_cmds g).
  assert (∀ c, c ∈ cmds → nanos_int64 c) as Hc.
  { intros c Hc. unfold cmds, hist_cmds in Hc. apply elem_of_list_omap in Hc as ([u o] & Hu & Ho).
    pose proof (vis_elem _ _ _ _ _ H Hu) as Hin. destruct o; try done. injection Ho as ->.
    apply elem_of_app in Hin as [Hin|Hin]; [|by apply elem_of_list_singleton in Hin].
    specialize (Hi _ Hin). cbn in Hi. by destruct c. }
  destruct (isl_of s cmds Hc) as [M J].
  assert (∀ f l, tsl 180 0 f l → good_ss (3 + length l) f l) as Ht.
  { intros f l Hl. unfold tsl in Hl. rewrite Nat.add_0_r in Hl. by eapply ss_ok_good. }
  split.
  - intros e tm Htm. specialize (M e). rewrite Htm in M. by apply Ht.
  - intros j ja Hj. specialize (J j). rewrite Hj in J. destruct J as [JM JT]. split; [|by apply Ht].
    intros e tm Htm. specialize (JM e). rewrite Htm in JM. by apply Ht.
Qed.
