(** * What a read returns *)
From Verif Require Import MAgg SAgg PAgg PContent PContent2.

Lemma new_aggregator_ok d retain :
  0 < d → 0 ≤ retain → new_aggregator d retain = Ok (Aggr d retain (Z.quot retain d) []).
Proof.
  intros Hd Hr. unfold new_aggregator.
  destruct (Z.eqb_spec d 0); [lia|].
  destruct (Z.ltb_spec (Z.quot retain d) 0); [|done].
  pose proof (Z.quot_pos retain d). lia.
Qed.

Lemma clock_monotone_app {A} (h1 h2 : list (Z * A)) :
  clock_monotone (h1 ++ h2) → clock_monotone h1.
Proof.
  induction h2 as [|[t o] h2 IH] using rev_ind; [by rewrite app_nil_r|].
  rewrite app_assoc. intros H. apply clock_monotone_snoc in H as [H _]. auto.
Qed.

Definition seen (d retain : Z) (h : list (Z * aop)) (t : Z) : list Z :=
  window d (Z.quot retain d) (h ++ [(t, OpRead)]).

Lemma get_metrics_eq d retain h t :
  0 < d → d ≤ retain → clock_monotone (h ++ [(t, OpRead)]) →
  get_metrics d retain h t = Ok (map (λ s, ia_of s (cmds_in d s h)) (seen d retain h t)).
Proof.
  intros Hd Hr Hc. unfold get_metrics, seen.
  rewrite new_aggregator_ok by lia.
  pose proof (run_char d retain _ Hd Hr Hc) as Hfull.
  pose proof (run_char d retain _ Hd Hr (clock_monotone_app _ _ Hc)) as Hpre.
  rewrite agg_run_app, Hpre in Hfull. simpl in Hfull. simpl rbind. rewrite Hpre. simpl rbind.
  assert (∀ w, map (λ s, ia_of s (cmds_in d s (h ++ [(t, OpRead)]))) w
             = map (λ s, ia_of s (cmds_in d s h)) w) as Hm.
  { intros w. apply map_ext. intros s. f_equal. by apply cmds_in_nocmd. }
  unfold memory_safe_intervals in Hfull. unfold agg_step, memory_safe_intervals.
  destruct (get_interval _ t) as [g|] eqn:Hg; simpl in Hfull; [|done].
  injection Hfull as ->. simpl. by rewrite Hm.
Qed.

Lemma get_metrics_char d retain h t out :
  0 < d → d ≤ retain → clock_monotone (h ++ [(t, OpRead)]) →
  get_metrics d retain h t = Ok out →
  out = map (λ s, ia_of s (cmds_in d s h)) (seen d retain h t).
Proof. intros Hd Hr Hc. rewrite get_metrics_eq by done. congruence. Qed.

Lemma get_metrics_in d retain h t out i :
  0 < d → d ≤ retain → clock_monotone (h ++ [(t, OpRead)]) →
  get_metrics d retain h t = Ok out → i ∈ out →
  i = ia_of (ia_start i) (cmds_in d (ia_start i) h).
Proof.
  intros Hd Hr Hc Hg Hi. apply get_metrics_char in Hg as ->; try done.
  apply elem_of_list_fmap in Hi as (s & -> & _). by rewrite ia_of_start.
Qed.

Lemma get_metrics_starts d retain h t out :
  0 < d → d ≤ retain → clock_monotone (h ++ [(t, OpRead)]) →
  get_metrics d retain h t = Ok out → map ia_start out = seen d retain h t.
Proof.
  intros Hd Hr Hc Hg. apply get_metrics_char in Hg as ->; try done.
  rewrite map_map. rewrite <- (map_id (seen d retain h t)) at 2. apply map_ext.
  intros s. apply ia_of_start.
Qed.

(** ** arbitrary clocks: no crash as long as the window is not empty *)
Lemma get_interval_safe a t :
  0 < a_max a → Z.of_nat (length (a_ints a)) ≤ a_max a →
  ∃ a', get_interval a t = Ok a' ∧ a_max a' = a_max a ∧ a_dur a' = a_dur a ∧
        Z.of_nat (length (a_ints a')) ≤ a_max a.
Proof.
  intros Hm Hl. unfold get_interval.
  assert (∃ a', create_interval a (truncate (a_dur a) t) = Ok a' ∧ a_max a' = a_max a ∧ a_dur a' = a_dur a ∧
     Z.of_nat (length (a_ints a')) ≤ a_max a) as Hc.
  { rewrite create_interval_char by done. eexists. split; [done|]. simpl.
    rewrite lastn_length. repeat split; lia. }
  destruct (last (a_ints a)) as [i|]; [|done].
  destruct (ia_start i =? truncate (a_dur a) t); [|done]. eauto.
Qed.

Lemma on_last_length F l : length (on_last F l) = length l.
Proof. unfold on_last. destruct (last l); [by rewrite insert_length|done]. Qed.

Lemma agg_step_safe a t o :
  0 < a_max a → Z.of_nat (length (a_ints a)) ≤ a_max a →
  ∃ a' r, agg_step a t o = Ok (a', r) ∧ a_max a' = a_max a ∧
        Z.of_nat (length (a_ints a')) ≤ a_max a.
Proof.
  intros Hm Hl. destruct (get_interval_safe a t Hm Hl) as (a' & Hg & Hmx & _ & Hl').
  unfold agg_step, memory_safe_intervals. rewrite Hg. simpl.
  destruct o; simpl; (eexists _, _; split; [done|]); simpl; rewrite ?on_last_length; done.
Qed.

Lemma agg_run_safe a h :
  0 < a_max a → Z.of_nat (length (a_ints a)) ≤ a_max a →
  ∃ a', agg_run a h = Ok a' ∧ a_max a' = a_max a ∧ Z.of_nat (length (a_ints a')) ≤ a_max a.
Proof.
  revert a. induction h as [|[t o] h IH]; intros a Hm Hl; [eauto|].
  destruct (agg_step_safe a t o Hm Hl) as (a' & r & Hs & Hmx & Hl'). simpl. rewrite Hs. simpl.
  rewrite <- Hmx in Hm, Hl'. destruct (IH a' Hm Hl') as (a'' & ? & ? & ?).
  exists a''. rewrite <- Hmx. done.
Qed.

Lemma omap_length_le {A B} (f : A → option B) (l : list A) : (length (omap f l) ≤ length l)%nat.
Proof.
  induction l as [|x l IH]; [done|]. cbn. unfold omap in *.
  destruct (f x); cbn; lia.
Qed.

Lemma w64_sum5 a b c d e :
  w64 (w64 a + w64 b + w64 c + w64 d + w64 e) = w64 (a + b + c + d + e).
Proof.
  rewrite w64_add_r. replace (w64 a + w64 b + w64 c + w64 d + e) with (w64 a + w64 b + w64 c + e + w64 d) by lia.
  rewrite w64_add_r. replace (w64 a + w64 b + w64 c + e + d) with (w64 a + w64 b + e + d + w64 c) by lia.
  rewrite w64_add_r. replace (w64 a + w64 b + e + d + c) with (w64 a + e + d + c + w64 b) by lia.
  rewrite w64_add_r. replace (w64 a + e + d + c + b) with (e + d + c + b + w64 a) by lia.
  rewrite w64_add_r. f_equal. lia.
Qed.

(** ** the theorems of TAgg.v *)
Section thms.
  Context (d retain : Z) (h : list (Z * aop)) (t : Z) (out : list ia).
  Context (Hd : 0 < d) (Hr : d ≤ retain) (Hc : clock_monotone (h ++ [(t, OpRead)])).
  Context (Hg : get_metrics d retain h t = Ok out).

  Lemma pull_in i : i ∈ out → ∃ s, i = ia_of s (cmds_in d s h).
  Proof using All.
    intros Hi. eexists. by apply (get_metrics_in _ _ _ _ _ _ Hd Hr Hc Hg Hi).
  Qed.
  Ltac pull Hi := apply pull_in in Hi as [?st ->];
    repeat match goal with x := context [ia_start (ia_of _ _)] |- _ => subst x end;
    rewrite ?ia_of_start in *.

  Lemma thm_events i e : i ∈ out →
    am_events (ia_maps i) !! e = counter_entry (length (events_of e (cmds_in d (ia_start i) h))).
  Proof using All.
    intros Hi. pull Hi.
    rewrite ia_of_maps. apply am_of_events.
  Qed.

  Lemma thm_timers i e : i ∈ out →
    let ts := timings_of e (cmds_in d (ia_start i) h) in
    Z.of_nat (length ts) ≤ 2 ^ 64 →
    match am_timers (ia_maps i) !! e with
    | None => ts = []
    | Some tm => ts ≠ [] ∧ summarises ts tm
    end.
  Proof using All.
    intros Hi ts Hl. pull Hi.
    rewrite ia_of_maps, am_of_timers. set (ts := timings_of _ _) in *. clearbody ts.
    destruct ts as [|x ts'] eqn:Hts; [done|]. rewrite <- Hts in *.
    assert (ts ≠ []) by (rewrite Hts; done).
    split; [done|]. by apply timer_of_summarises.
  Qed.

  Lemma thm_gauges i e : i ∈ out →
    am_gauges (ia_maps i) !! e = last (gauges_of e (cmds_in d (ia_start i) h)).
  Proof using All.
    intros Hi. pull Hi.
    rewrite ia_of_maps. apply am_of_gauges.
  Qed.

  Lemma thm_job_gauges i j ja e : i ∈ out → ia_jobs i !! j = Some ja →
    am_gauges (j_maps ja) !! e = last (gauges_of e (of_job j (cmds_in d (ia_start i) h))).
  Proof using All.
    intros Hi. pull Hi.
    rewrite ia_of_jobs. destruct (of_job j _) eqn:Ho; [done|]. rewrite <- Ho. intros [= <-].
    rewrite job_of_maps. apply am_of_gauges.
  Qed.

  Lemma thm_jobs i j : i ∈ out →
    let l := of_job j (cmds_in d (ia_start i) h) in
    Z.of_nat (length l) ≤ 2 ^ 64 →
    match ia_jobs i !! j with
    | None => l = []
    | Some ja => l ≠ [] ∧
        (∀ e, am_events (j_maps ja) !! e = counter_entry (length (events_of e l))) ∧
        (∀ e, am_gauges (j_maps ja) !! e = last (gauges_of e l)) ∧
        (∀ e, ec_count <$> am_errs (j_maps ja) !! e = counter_entry (length (errors_of e l))) ∧
        (∀ e, match am_timers (j_maps ja) !! e with
              | None => timings_of e l = []
              | Some tm => timings_of e l ≠ [] ∧ summarises (timings_of e l) tm
              end)
    end.
  Proof using All.
    intros Hi l Hlen. pull Hi.
    rewrite ia_of_jobs. set (l := of_job _ _) in *. clearbody l. destruct l as [|c l'] eqn:Hl; [done|]. rewrite <- Hl in *.
    split; [by rewrite Hl|]. clear Hl. rewrite job_of_maps.
    split; [intros e; apply am_of_events|].
    split; [intros e; apply am_of_gauges|].
    split.
    - intros e. rewrite am_of_errs. destruct (errors_of e l) eqn:He; [done|].
      rewrite <- He. simpl. rewrite errc_of_count. unfold counter_entry.
      rewrite decide_False; [done|]. by rewrite He.
    - intros e. rewrite am_of_timers. destruct (timings_of e l) eqn:He; [done|].
      rewrite <- He. assert (timings_of e l ≠ []) as Hne by (by rewrite He).
      split; [done|]. apply timer_of_summarises; [done|].
      assert (length (timings_of e l) ≤ length l)%nat; [|lia].
      unfold timings_of. apply omap_length_le.
  Qed.

  Lemma thm_partition i e : i ∈ out →
    w64 (over_jobs (λ ja, mget (am_events (j_maps ja)) e 0) i) = mget (am_events (ia_maps i)) e 0 ∧
    w64 (over_jobs (λ ja, ec_count (mget (am_errs (j_maps ja)) e errc0)) i)
      = ec_count (mget (am_errs (ia_maps i)) e errc0) ∧
    w64 (over_jobs (λ ja, t_count (mget (am_timers (j_maps ja)) e timer0)) i)
      = t_count (mget (am_timers (ia_maps i)) e timer0) ∧
    w64 (over_jobs (λ ja, t_sum (mget (am_timers (j_maps ja)) e timer0)) i)
      = t_sum (mget (am_timers (ia_maps i)) e timer0).
  Proof using All.
    intros Hi. pull Hi.
    split; [apply events_partition|]. split; [apply errors_partition|]. apply timers_partition.
  Qed.

  Lemma thm_errors i e : i ∈ out →
    let es := errors_of e (cmds_in d (ia_start i) h) in
    match am_errs (ia_maps i) !! e with
    | None => es = []
    | Some ec => es ≠ [] ∧ ec_count ec = i64 (length es) ∧
        ∀ xs, es = map Some xs →
          get_error_samples ec ≡ₚ lastn 5 (squash xs) ∧
          (length (get_error_samples ec) ≤ 5)%nat ∧
          (∀ x, x ∈ get_error_samples ec → x ∈ xs) ∧
          (∀ x, last xs = Some x → x ∈ get_error_samples ec)
    end.
  Proof using All.
    intros Hi es. pull Hi.
    rewrite ia_of_maps, am_of_errs. set (es := errors_of _ _) in *. clearbody es.
    destruct es as [|y es'] eqn:Hes; [done|]. rewrite <- Hes in *.
    assert (es ≠ []) by (by rewrite Hes). clear Hes.
    split; [done|]. split; [apply errc_of_count|].
    intros xs Hxs. rewrite Hxs.
    pose proof (ring_samples _ _ (errc_of_ring xs)) as Hp.
    split; [done|]. rewrite Hp, lastn_length. split; [lia|]. split.
    - intros x Hx. rewrite Hp in Hx. apply elem_of_lastn in Hx. by rewrite elem_of_squash in Hx.
    - intros x Hx. rewrite Hp. rewrite <- squash_last, <- (lastn_last 5) in Hx by lia.
      apply last_Some in Hx as [l' ->]. apply elem_of_app. right. by left.
  Qed.

  Lemma thm_complete i j : i ∈ out →
    let l := of_job j (cmds_in d (ia_start i) h) in
    let cs := completions_of l in
    Z.of_nat (length cs) ≤ 2 ^ 64 →
    match ia_jobs i !! j with
    | None => l = []
    | Some ja =>
        j_success ja = i64 (length (completions_with Success l)) ∧
        j_verror ja = i64 (length (completions_with ValidationError l)) ∧
        j_panic ja = i64 (length (completions_with Panic l)) ∧
        j_error ja = i64 (length (completions_with Error l)) ∧
        j_junk ja = i64 (length (completions_with Junk l)) ∧
        t_count (j_timer ja) = i64 (length cs) ∧
        (cs ≠ [] → summarises (map snd cs) (j_timer ja)) ∧
        ((∀ p, p ∈ cs → 0 ≤ p.1 ≤ 4) →
         t_count (j_timer ja) = w64 (j_success ja + j_verror ja + j_panic ja + j_error ja + j_junk ja))
    end.
  Proof using All.
    intros Hi l cs Hlen. pull Hi.
    rewrite ia_of_jobs. set (l := of_job _ _) in *. clearbody l. destruct l as [|c l'] eqn:Hl; [done|]. rewrite <- Hl in *. clear Hl.
    set (cs := completions_of l) in *.
    destruct (job_of_counters l) as (H0 & H1 & H2 & H3 & H4).
    rewrite job_of_timer. fold cs.
    do 5 (split; [done|]).
    split; [by rewrite timer_of_count, map_length|].
    split.
    { intros Hne. apply timer_of_summarises; [by destruct cs|]. by rewrite map_length. }
    intros Hst. rewrite timer_of_count, map_length. rewrite H0, H1, H2, H3, H4.
    unfold i64. rewrite w64_sum5. f_equal.
    rewrite <- (status_counts_sum cs Hst).
    unfold completions_with. fold cs. unfold Success, ValidationError, Panic, Error, Junk. lia.
  Qed.

  Lemma thm_window :
    map ia_start out = lastn (Z.to_nat (retain `div` d)) (squash (map (slot d) (map fst h ++ [t]))) ∧
    Z.of_nat (length out) ≤ retain `div` d ∧
    StronglySorted Z.lt (map ia_start out) ∧
    (∀ i, i ∈ out → (d | ia_start i)).
  Proof using All.
    pose proof (get_metrics_starts _ _ _ _ _ Hd Hr Hc Hg) as Hs.
    assert (Z.quot retain d = retain `div` d) as Hq by (apply Z.quot_div_nonneg; lia).
    assert (seen d retain h t = lastn (Z.to_nat (retain `div` d)) (squash (map (slot d) (map fst h ++ [t])))) as Hseen.
    { unfold seen, window. rewrite Hq. rewrite !map_app, map_map. done. }
    split; [congruence|]. split; [|split].
    - rewrite <- (map_length ia_start), Hs, Hseen, lastn_length.
      pose proof (Z.div_pos retain d). lia.
    - rewrite Hs. by apply window_sorted.
    - intros i Hi. assert (ia_start i ∈ seen d retain h t) as Hin.
      { rewrite <- Hs. by apply elem_of_list_fmap_1. }
      by apply window_divide in Hin as [? _].
  Qed.

  Lemma thm_serial i : i ∈ out → ia_serial i = i64 (length (cmds_in d (ia_start i) h)).
  Proof using All. intros Hi. pull Hi. apply ia_of_serial. Qed.
End thms.

(** ** two reads *)
Lemma i64_inj_le m n : i64 m = i64 n → (m ≤ n)%nat → Z.of_nat n < 2 ^ 64 → m = n.
Proof.
  intros He Hle Hn. unfold i64 in He. apply w64_eq_iff in He.
  rewrite !Z.mod_small in He by lia. lia.
Qed.

Lemma thm_two_reads d retain h1 t1 out1 h2 t2 out2 i1 i2 :
  0 < d → d ≤ retain → clock_monotone (h1 ++ (t1, OpRead) :: h2 ++ [(t2, OpRead)]) →
  get_metrics d retain h1 t1 = Ok out1 →
  get_metrics d retain (h1 ++ (t1, OpRead) :: h2) t2 = Ok out2 →
  i1 ∈ out1 → i2 ∈ out2 → ia_start i1 = ia_start i2 →
  (cmds_in d (ia_start i1) h2 = [] → i1 = i2) ∧
  (ia_serial i1 = ia_serial i2 →
   Z.of_nat (length (cmds_in d (ia_start i1) (h1 ++ h2))) < 2 ^ 64 → i1 = i2).
Proof.
  intros Hd Hr Hc Hg1 Hg2 Hi1 Hi2 Hst.
  assert (clock_monotone (h1 ++ [(t1, OpRead)])) as Hc1.
  { apply (clock_monotone_app _ (h2 ++ [(t2, OpRead)])). by rewrite <- app_assoc. }
  assert (clock_monotone ((h1 ++ (t1, OpRead) :: h2) ++ [(t2, OpRead)])) as Hc2.
  { by rewrite <- app_assoc. }
  destruct (pull_in _ _ _ _ _ Hd Hr Hc1 Hg1 _ Hi1) as [s1 ->].
  destruct (pull_in _ _ _ _ _ Hd Hr Hc2 Hg2 _ Hi2) as [s2 ->].
  rewrite !ia_of_start in *. subst s2.
  assert (cmds_in d s1 (h1 ++ (t1, OpRead) :: h2) = cmds_in d s1 h1 ++ cmds_in d s1 h2) as Hsplit.
  { rewrite cmds_in_app. f_equal. }
  rewrite Hsplit. rewrite cmds_in_app.
  split.
  - intros ->. by rewrite app_nil_r.
  - rewrite !ia_of_serial, !app_length. intros He Hlt.
    apply i64_inj_le in He; [|lia|lia].
    assert (cmds_in d s1 h2 = []) as ->; [|by rewrite app_nil_r].
    apply nil_length_inv. lia.
Qed.

(** ** single steps, arbitrary states *)
Lemma create_interval_cases a s a' :
  create_interval a s = Ok a' →
  ∃ l, a_ints a' = l ++ [new_ia s] ∧ (l = a_ints a ∨ l = drop 1 (a_ints a)).
Proof.
  unfold create_interval. destruct (_ =? _).
  - destruct (Nat.eqb_spec (length (a_ints a)) 0) as [|Hn]; [done|].
    intros [= <-]. simpl. exists (drop 1 (a_ints a)). split; [|auto].
    apply shift_in. by destruct (a_ints a).
  - intros [= <-]. simpl. eauto.
Qed.

Lemma get_interval_cases a t a' :
  get_interval a t = Ok a' →
  a_ints a' = a_ints a ∨
  ∃ l, a_ints a' = l ++ [new_ia (truncate (a_dur a) t)] ∧ (l = a_ints a ∨ l = drop 1 (a_ints a)).
Proof.
  unfold get_interval. destruct (last (a_ints a)) as [i|].
  - destruct (_ =? _); [intros [= <-]; auto|]. intros H. right. by apply create_interval_cases.
  - intros H. right. by apply create_interval_cases.
Qed.

Lemma get_interval_last a t a' :
  get_interval a t = Ok a' → ∃ l i, a_ints a' = l ++ [i] ∧ ia_start i = truncate (a_dur a) t.
Proof.
  unfold get_interval. destruct (last (a_ints a)) as [i|] eqn:Hl.
  - destruct (Z.eqb_spec (ia_start i) (truncate (a_dur a) t)) as [He|].
    + intros [= <-]. apply last_Some in Hl as [l Hl]. eauto.
    + intros H. apply create_interval_cases in H as (l & -> & _). eauto.
  - intros H. apply create_interval_cases in H as (l & -> & _). eauto.
Qed.

(** a tick or a read changes no interval that stays *)
Lemma thm_tick_read a t o a' r i :
  agg_step a t o = Ok (a', r) → (∀ c, o ≠ OpCmd c) → i ∈ a_ints a' →
  i ∈ a_ints a ∨ i = new_ia (truncate (a_dur a) t).
Proof.
  intros Hs Ho Hi.
  assert (get_interval a t = Ok a') as Hg.
  { unfold agg_step, memory_safe_intervals in Hs.
    destruct (get_interval a t) as [g|]; [|by destruct o].
    destruct o; simpl in Hs; [by destruct (Ho c)|congruence|congruence]. }
  apply get_interval_cases in Hg as [Heq|(l & Heq & Hl)]; rewrite Heq in Hi; [auto|].
  apply elem_of_app in Hi as [Hi|Hi%elem_of_list_singleton]; [|auto].
  left. destruct Hl as [->| ->]; [done|]. destruct (a_ints a); [done|]. by right.
Qed.

(** a command changes only the last interval, adding one to its serial number *)
Lemma thm_cmd_serial a t c a' r :
  agg_step a t (OpCmd c) = Ok (a', r) →
  ∃ l i i', a_ints a' = l ++ [i'] ∧ ia_start i' = truncate (a_dur a) t ∧
    ia_serial i' = w64 (ia_serial i + 1) ∧
    (∀ x, x ∈ l → x ∈ a_ints a) ∧
    (i ∈ a_ints a ∨ i = new_ia (truncate (a_dur a) t)) ∧ ia_start i = ia_start i'.
Proof.
  unfold agg_step. destruct (get_interval a t) as [g|] eqn:Hg; simpl; [|done].
  intros [= <- <-]. simpl.
  destruct (get_interval_last _ _ _ Hg) as (l & i & Hl & Hst).
  rewrite Hl, on_last_snoc. exists l, i, (ia_apply i c).
  split; [done|]. rewrite ia_apply_start, ia_apply_serial. do 2 (split; [done|]).
  apply get_interval_cases in Hg as [Hg|(l' & Hg & Hor)].
  - rewrite <- Hg, Hl. split; [|split; [|done]].
    + intros x Hx. apply elem_of_app; auto.
    + left. apply elem_of_app. right. by left.
  - rewrite Hg in Hl. apply app_inj_tail in Hl as [-> <-].
    split; [|auto]. intros x Hx. destruct Hor as [->| ->]; [done|].
    destruct (a_ints a); [done|]. by right.
Qed.

(** ** retention settings *)
Lemma thm_small_retention_crashes d retain t o :
  0 < d → 0 ≤ retain < d →
  ∃ a0, new_aggregator d retain = Ok a0 ∧ agg_run a0 [(t, o)] = Crash "index out of range [-1]".
Proof.
  intros Hd Hr. eexists. split; [apply new_aggregator_ok; lia|].
  rewrite Z.quot_small by lia. destruct o; done.
Qed.

Lemma thm_retention_safe d retain h :
  0 < d → d ≤ retain →
  ∃ a0 a, new_aggregator d retain = Ok a0 ∧ agg_run a0 h = Ok a ∧
          Z.of_nat (length (a_ints a)) ≤ retain `div` d.
Proof.
  intros Hd Hr. pose proof (max_pos d retain Hd Hr) as Hm.
  destruct (agg_run_safe (Aggr d retain (Z.quot retain d) []) h) as (a & Ha & _ & Hl); [done|simpl; lia|].
  eexists _, a. split; [apply new_aggregator_ok; lia|]. split; [done|].
  rewrite <- Z.quot_div_nonneg by lia. done.
Qed.

Lemma thm_duplicate_interval : ∃ d retain h t out i1 i2,
  0 < d ∧ d ≤ retain ∧ get_metrics d retain h t = Ok out ∧
  out !! 0%nat = Some i1 ∧ out !! 2%nat = Some i2 ∧ ia_start i1 = ia_start i2.
Proof.
  exists 60, 300, [(70, OpCmd (CEvent "j" "e")); (125, OpTick)], 119,
    [ia_of 60 [CEvent "j" "e"]; new_ia 120; new_ia 60], (ia_of 60 [CEvent "j" "e"]), (new_ia 60).
  repeat split; lia.
Qed.

Lemma sorted_lt_NoDup l : StronglySorted Z.lt l → NoDup l.
Proof.
  induction 1 as [|x l Hs IH Hf]; constructor; [|done].
  intros Hin. rewrite Forall_forall in Hf. specialize (Hf x Hin). lia.
Qed.

Lemma thm_no_duplicate_interval d retain h t out :
  0 < d → d ≤ retain → clock_monotone (h ++ [(t, OpRead)]) →
  get_metrics d retain h t = Ok out → NoDup (map ia_start out).
Proof.
  intros Hd Hr Hc Hg. apply sorted_lt_NoDup. by apply (thm_window d retain h t out).
Qed.
