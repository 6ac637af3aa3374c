(** * What a sink serves can be written: from emissions to healthd *)
From Verif Require Import SWire SAgg SFloat2 PContent PAgg2 PWire2 PFloat3.

(** everything but the sums of squares *)
Definition timer_pre (t : timer) : Prop := in_int64 (t_count t) ∧ in_int64 (t_sum t) ∧ in_int64 (t_min t) ∧ in_int64 (t_max t).
Definition maps_pre (P : string → Prop) (m : amaps) : Prop :=
  map_Forall (λ k t, P k ∧ timer_pre t) (am_timers m) ∧ map_Forall (λ k f, P k ∧ float_ok f) (am_gauges m) ∧
  map_Forall (λ k n, P k ∧ in_int64 n) (am_events m) ∧ map_Forall (λ k c, P k ∧ in_int64 (ec_count c)) (am_errs m).
Definition job_pre (P : string → Prop) (j : jobagg) : Prop :=
  maps_pre P (j_maps j) ∧ timer_pre (j_timer j) ∧ in_int64 (j_success j) ∧ in_int64 (j_verror j) ∧ in_int64 (j_panic j) ∧
  in_int64 (j_error j) ∧ in_int64 (j_junk j).
Definition ia_pre (P : string → Prop) (off : Z → Z) (a : ia) : Prop :=
  zone_ok (off (ia_start a)) ∧ year_ok (off (ia_start a)) (ia_start a) ∧ in_int64 (ia_serial a) ∧
  map_Forall (λ k j, P k ∧ job_pre P j) (ia_jobs a) ∧ maps_pre P (ia_maps a).

Lemma zero64 : in_int64 0.
Proof. done. Qed.
Lemma timer0_pre : timer_pre timer0.
Proof. done. Qed.
Lemma mget_all {V} (Q : string → V → Prop) m k d : map_Forall Q m → (∀ k, Q k d) → Q k (mget m k d).
Proof. intros H Hd. unfold mget. destruct (m !! k) eqn:E; [by apply H|apply Hd]. Qed.
Lemma mget_pre {V} (P : string → Prop) (Q : V → Prop) m k d : map_Forall (λ k v, P k ∧ Q v) m → Q d → Q (mget m k d).
Proof. intros H Hd. unfold mget. destruct (m !! k) eqn:E; [by destruct (H _ _ E)|done]. Qed.
Lemma timer_ingest_pre t n : timer_pre t → in_int64 n → timer_pre (timer_ingest t n).
Proof.
  intros (H1&H2&H3&H4) Hn. unfold timer_ingest, timer_pre. cbn [t_count t_sum t_min t_max]. split; [apply w64_range|]. split; [apply w64_range|].
  split; [by destruct (_ || _)|]. by destruct (_ || (t_max t <? n)).
Qed.
Lemma amaps0_pre P : maps_pre P amaps0.
Proof. by split_and!; apply map_Forall_empty. Qed.
Lemma inc_event_pre P m e : maps_pre P m → P e → maps_pre P (am_inc_event m e).
Proof. intros (H1&H2&H3&H4) He. split_and!; try done. apply map_Forall_insert_2; [|done]. split; [done|apply w64_range]. Qed.
Lemma add_err_count ec e : ec_count (add_error ec e) = ec_count ec.
Proof. unfold add_error. destruct (_ !! _) as [[?|]|]; try done. by destruct (bool_decide _). Qed.
Lemma add_err_pre P m e x : maps_pre P m → P e → maps_pre P (am_add_err m e x).
Proof. intros (H1&H2&H3&H4) He. split_and!; try done. apply map_Forall_insert_2; [|done]. split; [done|]. unfold increment_and_add_error. rewrite add_err_count. apply w64_range. Qed.
Lemma add_timing_pre P m e n : maps_pre P m → P e → in_int64 n → maps_pre P (am_add_timing m e n).
Proof.
  intros (H1&H2&H3&H4) He Hn. split_and!; try done. apply map_Forall_insert_2; [|done]. split; [done|]. apply timer_ingest_pre; [|done].
  eapply mget_pre; [exact H1|apply timer0_pre].
Qed.
Lemma set_gauge_pre P m e f : maps_pre P m → P e → float_ok f → maps_pre P (am_set_gauge m e f).
Proof. intros (H1&H2&H3&H4) He Hf. split_and!; try done. by apply map_Forall_insert_2. Qed.
Lemma job0_pre P : job_pre P job0.
Proof. split; [apply amaps0_pre|]. done. Qed.
Lemma job_on_maps_pre P f j : (∀ m, maps_pre P m → maps_pre P (f m)) → job_pre P j → job_pre P (job_on_maps f j).
Proof. intros Hf (H1&H2). split; [by apply Hf|done]. Qed.
Lemma job_ingest_pre P j st n : job_pre P j → in_int64 n → job_pre P (job_ingest j st n).
Proof.
  intros (H1&H2&H3&H4&H5&H6&H7) Hn. pose proof (timer_ingest_pre _ _ H2 Hn). unfold job_ingest.
  destruct (st =? Success); [split_and!; try done; apply w64_range|]. destruct (st =? ValidationError); [split_and!; try done; apply w64_range|].
  destruct (st =? Panic); [split_and!; try done; apply w64_range|]. destruct (st =? Error); [split_and!; try done; apply w64_range|].
  destruct (st =? Junk); [split_and!; try done; apply w64_range|]. done.
Qed.
Lemma with_job_pre P off a job f : ia_pre P off a → P job → (∀ j, job_pre P j → job_pre P (f j)) → ia_pre P off (with_job a job f).
Proof.
  intros (H1&H2&H3&H4&H5) Hj Hf. split_and!; try done. apply map_Forall_insert_2; [|done]. split; [done|]. apply Hf. eapply mget_pre; [exact H4|apply job0_pre].
Qed.
Lemma bump_pre P off a : ia_pre P off a → ia_pre P off (ia_bump a).
Proof. intros (H1&H2&H3&H4&H5). split_and!; try done. apply w64_range. Qed.
Lemma on_maps_pre P off f a : (∀ m, maps_pre P m → maps_pre P (f m)) → ia_pre P off a → ia_pre P off (ia_on_maps f a).
Proof. intros Hf (H1&H2&H3&H4&H5). split_and!; try done. by apply Hf. Qed.
Lemma apply_pre P off a c : ia_pre P off a → cmd_ok P c → ia_pre P off (ia_apply a c).
Proof.
  intros Ha Hc. destruct c; cbn [ia_apply cmd_ok] in *.
  - destruct Hc as [? ?]. apply bump_pre, with_job_pre; [|done|].
    + apply on_maps_pre; [|done]. intros. by apply inc_event_pre.
    + intros. apply job_on_maps_pre; [|done]. intros. by apply inc_event_pre.
  - destruct Hc as [? ?]. apply bump_pre, with_job_pre; [|done|].
    + apply on_maps_pre; [|done]. intros. by apply add_err_pre.
    + intros. apply job_on_maps_pre; [|done]. intros. by apply add_err_pre.
  - destruct Hc as (?&?&?). apply bump_pre, with_job_pre; [|done|].
    + apply on_maps_pre; [|done]. intros. by apply add_timing_pre.
    + intros. apply job_on_maps_pre; [|done]. intros. by apply add_timing_pre.
  - destruct Hc as (?&?&?). apply bump_pre, with_job_pre; [|done|].
    + apply on_maps_pre; [|done]. intros. by apply set_gauge_pre.
    + intros. apply job_on_maps_pre; [|done]. intros. by apply set_gauge_pre.
  - destruct Hc as [? ?]. apply bump_pre, with_job_pre; [done..|]. intros. by apply job_ingest_pre.
Qed.
Lemma get_interval_pre P off a t a' : get_interval a t = Ok a' → Forall (ia_pre P off) (a_ints a) →
  zone_ok (off (truncate (a_dur a) t)) → year_ok (off (truncate (a_dur a) t)) (truncate (a_dur a) t) → Forall (ia_pre P off) (a_ints a').
Proof.
  intros E Ha Hz Hy. apply get_interval_cases in E as [->|(l&->&Hl)]; [done|]. apply Forall_app. split.
  - destruct Hl as [->| ->]; [done|by apply Forall_drop].
  - constructor; [|constructor]. split_and!; try done; [by apply map_Forall_empty..].
Qed.
Lemma get_interval_dur a t a' : get_interval a t = Ok a' → a_dur a' = a_dur a.
Proof.
  unfold get_interval, create_interval. destruct (last _) as [i|].
  - destruct (_ =? _); [by intros [= <-]|]. destruct (_ =? _); [|by intros [= <-]]. destruct (_ =? _)%nat; [done|by intros [= <-]].
  - destruct (_ =? _); [|by intros [= <-]]. destruct (_ =? _)%nat; [done|by intros [= <-]].
Qed.
Lemma step_pre P off a t o a' r : agg_step a t o = Ok (a', r) → Forall (ia_pre P off) (a_ints a) →
  (∀ c, o = OpCmd c → cmd_ok P c) → zone_ok (off (truncate (a_dur a) t)) → year_ok (off (truncate (a_dur a) t)) (truncate (a_dur a) t) →
  a_dur a' = a_dur a ∧ Forall (ia_pre P off) (a_ints a') ∧ (∀ out, r = Some out → out = a_ints a').
Proof.
  intros E Ha Hc Hz Hy. destruct o; cbn in E; unfold memory_safe_intervals in E; destruct (get_interval a t) as [x|] eqn:G; try done; cbn in E; injection E as <- <-.
  - pose proof (get_interval_pre _ _ _ _ _ G Ha Hz Hy) as Hx. pose proof (get_interval_dur _ _ _ G). cbn. split; [done|]. split; [|done].
    unfold on_last. destruct (last (a_ints x)) as [i|] eqn:L; [|done]. apply Forall_insert; [done|]. apply apply_pre; [|by apply Hc].
    rewrite Forall_forall in Hx. apply Hx. apply last_Some in L as [l' ->]. apply elem_of_app. right. by left.
  - split; [by apply get_interval_dur in G|]. split; [by eapply get_interval_pre|done].
  - split; [by apply get_interval_dur in G|]. split; [by eapply get_interval_pre|]. cbn. congruence.
Qed.
Lemma run_pre P off h : ∀ a a', agg_run a h = Ok a' → Forall (ia_pre P off) (a_ints a) → history_ok P off (a_dur a) h →
  a_dur a' = a_dur a ∧ Forall (ia_pre P off) (a_ints a').
Proof.
  induction h as [|[t o] h IH]; intros a a' E Ha Hh; [by injection E as <-|]. cbn in E. destruct (agg_step a t o) as [[x r]|] eqn:S; [|done]. cbn in E.
  destruct (Hh t o ltac:(by left)) as (H1&H2&H3). destruct (step_pre _ _ _ _ _ _ _ S Ha H1 H2 H3) as (D&Hx&_).
  destruct (IH _ _ E Hx) as [D' H']; [|by rewrite D', D]. rewrite D. intros t' o' Hin. apply Hh. by right.
Qed.
Lemma sink_pre P off d retain h t out : get_metrics d retain h t = Ok out → history_ok P off d (h ++ [(t, OpRead)]) → Forall (ia_pre P off) out.
Proof.
  intros E Hh. unfold get_metrics in E. destruct (new_aggregator d retain) as [a0|] eqn:N; [|done]. cbn [rbind] in E.
  assert (a_dur a0 = d ∧ a_ints a0 = []) as [D0 I0]. { unfold new_aggregator in N. destruct (d =? 0); [done|]. destruct (_ <? _); [done|]. by injection N as <-. }
  destruct (agg_run a0 h) as [a|] eqn:R; [|done]. cbn [rbind] in E.
  destruct (run_pre P off h a0 a R) as [D H]; [by rewrite I0|rewrite D0; intros t' o' Hin; apply Hh, elem_of_app; by left|].
  destruct (agg_step a t OpRead) as [[x r]|] eqn:S; [|done]. destruct (Hh t OpRead ltac:(apply elem_of_app; right; by left)) as (H1&H2&H3).
  rewrite <-D0, <-D in H2, H3. destruct (step_pre _ _ _ _ _ _ _ S H H1 H2 H3) as (_&Hx&Ho). cbn in E. destruct r as [o|]; [|done]. injection E as <-. by rewrite (Ho o).
Qed.
Lemma history_int64 P off d h : history_ok P off d h → host_int64 h.
Proof. intros H [t o] Hx. destruct (H t o Hx) as [Hc _]. destruct o as [c| |]; cbn; try done. specialize (Hc c eq_refl). destruct c; cbn in *; try done; tauto. Qed.
Lemma sink_ok P off d retain h t out : 0 < d → d ≤ retain → clock_monotone (h ++ [(t, OpRead)]) →
  get_metrics d retain h t = Ok out → history_ok P off d (h ++ [(t, OpRead)]) → Forall (ia_ok P off) out.
Proof.
  intros Hd Hr Hm E Hh. pose proof (sink_pre _ _ _ _ _ _ _ E Hh) as Hp. apply Forall_forall. intros i Hi. rewrite Forall_forall in Hp.
  destruct (Hp i Hi) as (H1&H2&H3&H4&H5).
  destruct (thm_sink_ss d retain h t out i Hd Hr Hm E Hi) as [S1 S2]. { eapply (history_int64 P off d). intros t' o' Hin. apply Hh, elem_of_app. by left. }
  assert (HT : ∀ tm, timer_pre tm → (∃ k l, good_ss k (t_ss tm) l) → timer_ok tm).
  { intros tm (A&B&C&D) (k&l&_&V&F&_). done. }
  assert (HM : ∀ m, maps_pre P m → (∀ e tm, am_timers m !! e = Some tm → ∃ k l, good_ss k (t_ss tm) l) → maps_ok P m).
  { intros m (A&B&C&D) Hs. split; [|done]. intros e tm Htm. destruct (A e tm Htm) as [? ?]. split; [done|]. apply HT; [done|]. by eapply Hs. }
  split_and!; try done.
  - intros k j Hk. destruct (H4 k j Hk) as [Hn (A&B&C)]. destruct (S2 k j Hk) as [S3 S4]. split; [done|]. split; [|split; [|done]].
    + apply HM; [done|]. intros e tm Htm. do 2 eexists. by apply S3.
    + apply HT; [done|]. do 2 eexists. exact S4.
  - apply HM; [done|]. intros e tm Htm. do 2 eexists. by apply S1.
Qed.
Lemma thm_end_to_end ff off msg inst d retain h t out loc code nanos x part :
  float_codec ff → good_name inst → in_int64 d → 0 < d → d ≤ retain → clock_monotone (h ++ [(t, OpRead)]) →
  get_metrics d retain h t = Ok out → history_ok good_name off d (h ++ [(t, OpRead)]) →
  ∃ body, serve_health ff off msg "/health" inst d out = (200, body) ∧
    fetch_of loc code nanos x part body = FReply code nanos (Reply inst d (wire_ias off loc out)).
Proof. intros Hff Hi H64 Hd Hr Hm E Hh. apply thm_round_trip; try done. by eapply sink_ok. Qed.
