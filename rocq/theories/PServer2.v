(** * Proofs: StatsD metric names *)
From Verif Require PLibrato2.
From Verif Require Import SServer PStatsd PStatsd2 PStatsdEx PServer.

Lemma plain_san s : plain_name s → sanitize_key s = s.
Proof.
  intros [_ H]. unfold sanitize_key. rewrite <- (str_bytes s) at 2. f_equal.
  rewrite <- (map_id (bytes_of s)) at 2. apply map_ext_in. intros c Hc. apply elem_of_list_In, H in Hc as [Hc _].
  unfold name_byte in Hc. unfold sanitize_byte. destruct (_ || _)%N eqn:E; [done|].
  destruct Hc as [Hc|[->|[->| ->]]]; [|done|done|done]. exfalso.
  rewrite !orb_false_iff, !andb_false_iff, !N.leb_gt in E. lia.
Qed.
Definition dot_free (s : string) : Prop := "."%char ∉ bytes_of s.
Lemma plain_dot s : plain_name s → dot_free s.
Proof. intros [_ H] Hc. by apply H in Hc as [_ Hc]. Qed.
Lemma name_join o l : o_san o = sanitize_key → Forall plain_name l →
  metric_name o l = String.concat "." ((if decide (o_prefix o = "") then [] else [sanitize_key (o_prefix o)]) ++ l).
Proof.
  intros Hs Hl. unfold metric_name. rewrite filter_cons, Hs.
  assert (map sanitize_key (filter (λ p, p ≠ "") l) = l) as E.
  { induction Hl as [|x l Hx _ IH]; [done|]. rewrite filter_cons, decide_True by apply Hx. cbn. by rewrite IH, plain_san. }
  repeat case_decide; try done; cbn [map app]; by rewrite E.
Qed.
Lemma name_inj o l1 l2 : o_san o = sanitize_key → Forall plain_name l1 → Forall plain_name l2 → l1 ≠ [] → l2 ≠ [] →
  metric_name o l1 = metric_name o l2 → l1 = l2.
Proof.
  intros Hs H1 H2 N1 N2. rewrite !name_join by done.
  assert (Forall dot_free l1) as D1 by (eapply Forall_impl; [done|apply plain_dot]).
  assert (Forall dot_free l2) as D2 by (eapply Forall_impl; [done|apply plain_dot]).
  destruct l1 as [|x l1], l2 as [|y l2]; try done. case_decide; cbn [app].
  - by apply PLibrato2.concat_inj.
  - intros E.
    change (sanitize_key (o_prefix o) +:+ "." +:+ String.concat "." (x :: l1) = sanitize_key (o_prefix o) +:+ "." +:+ String.concat "." (y :: l2)) in E.
    apply PLibrato2.sapp_inj_l, PLibrato2.sapp_inj_l in E. by apply PLibrato2.concat_inj.
Qed.

Lemma plain_b s : bool_decide (s ≠ "" ∧ Forall (λ c, (65 ≤ code c ≤ 90 ∨ 97 ≤ code c ≤ 122 ∨ 48 ≤ code c ≤ 57)%N ∨ c = "_"%char ∨ c = "$"%char) (bytes_of s)) = true → plain_name s.
Proof.
  intros H. apply bool_decide_eq_true in H as [H1 H2]. split; [done|]. intros c Hc. rewrite Forall_forall in H2. specialize (H2 c Hc).
  unfold name_byte. split; [tauto|]. intros ->. vm_compute in H2. intuition congruence.
Qed.
Lemma plain_error : plain_name "error".
Proof. apply plain_b. reflexivity. Qed.
Lemma plain_status st : 0 ≤ st ≤ 4 → plain_name (status_string st) ∧ status_string st ∈ ["success"; "validation_error"; "panic"; "error"; "junk"] ∧
  ∀ st', 0 ≤ st' ≤ 4 → status_string st = status_string st' → st = st'.
Proof.
  intros H. assert (st = 0 ∨ st = 1 ∨ st = 2 ∨ st = 3 ∨ st = 4) as D by lia.
  split; [|split].
  - repeat destruct D as [->|D]; [..|subst st]; apply plain_b; reflexivity.
  - repeat destruct D as [->|D]; [..|subst st]; vm_compute; repeat (constructor; fail) || set_solver.
  - intros st' H' E. assert (st' = 0 ∨ st' = 1 ∨ st' = 2 ∨ st' = 3 ∨ st' = 4) as D' by lia.
    repeat destruct D as [->|D]; repeat destruct D' as [->|D']; subst; try done.
Qed.
Definition parts_of (s : series) : list string :=
  match s with
  | S_events j e | S_timings j e | S_gauges j e => with_job j [e]
  | S_errors j e => with_job j [e; "error"]
  | S_completions j st => [j; status_string st]
  end.
Lemma series_parts s : plain_series s → Forall plain_name (parts_of s) ∧ parts_of s ≠ [].
Proof.
  pose proof plain_error.
  destruct s as [[j|] e|[j|] e|[j|] e|[j|] e|j st]; cbn; intros Hs; (split; [|done]); repeat (apply Forall_cons; split); try apply Forall_nil; try tauto.
  apply plain_status. tauto.
Qed.
Lemma thm_series o s1 s2 : o_san o = sanitize_key → plain_series s1 → plain_series s2 →
  series_type s1 = series_type s2 → series_name o s1 = series_name o s2 → s1 = s2.
Proof.
  intros Hs H1 H2 Ht Hn. pose proof (series_parts _ H1) as [P1 N1]. pose proof (series_parts _ H2) as [P2 N2].
  change (metric_name o (parts_of s1) = metric_name o (parts_of s2)) in Hn. apply name_inj in Hn; [|done..].
  destruct s1 as [[j1|] e1|[j1|] e1|[j1|] e1|[j1|] e1|j1 st1], s2 as [[j2|] e2|[j2|] e2|[j2|] e2|[j2|] e2|j2 st2]; cbn in *; try done;
    injection Hn; intros; subst; try done; try tauto.
  - exfalso. destruct H1 as (_ & _ & H1). destruct H2 as (_ & H2). apply plain_status in H2 as (_ & H2 & _). done.
  - exfalso. destruct H2 as (_ & _ & H2). destruct H1 as (_ & H1). apply plain_status in H1 as (_ & H1 & _). done.
  - f_equal. destruct H1 as [_ H1], H2 as [_ H2]. apply (proj2 (proj2 (plain_status _ H1))); done.
Qed.

(** ** the lines of a command are its series' *)
Lemma thm_lines o c : ∃ v, lines_of o c = map (λ s, series_name o s +:+ ":" +:+ v +:+ "|" +:+ series_type s +:+ nl) (series_of o c).
Proof.
  assert (∀ parts e, metric_name o (parts ++ [e; ""]) = metric_name o (parts ++ [e])) as E.
  { intros parts e. unfold metric_name. do 2 f_equal. rewrite !filter_cons, !filter_app, !filter_cons, filter_nil. by rewrite (decide_False (P := "" ≠ "")) by tauto. }
  pose proof (E []) as E1. pose proof (λ j, E [j]) as E2. cbn [app] in E1, E2.
  destruct c as [j e|j e m|j e n|j e v|j st n]; cbn [lines_of series_of]; eexists; unfold both, line; try rewrite map_app; try rewrite E1, E2;
    try (f_equal; [by destruct (o_skip_top o)|by destruct (o_skip_nested o)]).
  reflexivity.
Qed.

(** ** counting by series *)
Lemma each_series {A} o s ss (a : A) : o_san o = sanitize_key → plain_series s → Forall plain_series ss → NoDup ss →
  Forall (λ s', series_type s' = series_type s) ss →
  each (series_name o s) (map (series_name o) ss) a = if decide (s ∈ ss) then [a] else [].
Proof.
  intros Ho Hs Hss. unfold each. induction Hss as [|x l Hx _ IH]; intros Hn Ht; [done|].
  apply NoDup_cons in Hn as [Hnx Hn]. apply Forall_cons in Ht as [Htx Ht]. cbn [map]. rewrite filter_cons. specialize (IH Hn Ht).
  destruct (decide (series_name o x = series_name o s)) as [E|E].
  - apply thm_series in E as ->; [|done..]. cbn [map]. rewrite IH. rewrite decide_False by done. by rewrite decide_True by left.
  - rewrite IH. destruct (decide (s ∈ l)) as [Hl|Hl]; [by rewrite decide_True by (by right)|]. rewrite decide_False; [done|].
    rewrite elem_of_cons. intros [->|?]; done.
Qed.
Lemma names_series o j e x (f : option string → series) :
  (∀ jo, series_name o (f jo) = metric_name o (with_job jo [e; x])) →
  names_of o j e x = map (series_name o) ((if o_skip_top o then [] else [f None]) ++ (if o_skip_nested o then [] else [f (Some j)])).
Proof. intros H. unfold names_of. rewrite map_app. f_equal; [destruct (o_skip_top o)|destruct (o_skip_nested o)]; cbn [map]; by rewrite ?H. Qed.

Definition one_type (c : cmd) : string := match c with CEvent _ _ | CEventErr _ _ _ => "c" | CGauge _ _ _ => "g" | _ => "ms" end.
Lemma series_of_type o c : Forall (λ s, series_type s = one_type c) (series_of o c).
Proof. destruct c; cbn; try (apply Forall_app; split; [destruct (o_skip_top o)|destruct (o_skip_nested o)]); repeat constructor. Qed.
Lemma series_of_nodup o c : NoDup (series_of o c).
Proof.
  destruct c; cbn; try (destruct (o_skip_top o), (o_skip_nested o)); cbn; repeat (apply NoDup_cons; split); try apply NoDup_nil; try done;
    rewrite ?elem_of_list_singleton; try done; apply not_elem_of_nil.
Qed.
Lemma empty_suffix o jo e : metric_name o (with_job jo [e]) = metric_name o (with_job jo [e; ""]).
Proof.
  unfold metric_name. do 2 f_equal. destruct jo as [j|]; cbn [with_job]; rewrite !filter_cons, !filter_nil; by rewrite (decide_False (P := "" ≠ "")) by tauto.
Qed.
Lemma each_cmd {A} o s c (a : A) : o_san o = sanitize_key → plain_series s → Forall plain_series (series_of o c) → series_type s = one_type c →
  each (series_name o s) (map (series_name o) (series_of o c)) a = if decide (s ∈ series_of o c) then [a] else [].
Proof.
  intros Ho Hs Hc Ht. apply each_series; [done..|apply series_of_nodup|]. rewrite Ht. apply series_of_type.
Qed.
Lemma other_type o s c : series_type s ≠ one_type c → ¬ s ∈ series_of o c.
Proof. intros H Hs. pose proof (series_of_type o c) as F. rewrite Forall_forall in F. by apply F in Hs. Qed.

Lemma thm_counts_series o s l : o_san o = sanitize_key → plain_series s → series_type s = "c" → plain_cmds o l →
  counts o (series_name o s) l = Z.of_nat (length (filter (λ c, s ∈ series_of o c) l)).
Proof.
  intros Ho Hs Ht Hl. unfold counts. f_equal. induction Hl as [|c l Hc _ IH]; [done|]. cbn [map concat]. rewrite app_length, IH, filter_cons.
  assert (∀ jo (e x : string), x = "" ∨ x = "error" → series_name o (if decide (x = "") then S_events jo e else S_errors jo e) = metric_name o (with_job jo [e; x])) as N.
  { intros jo e x [->| ->]; [apply empty_suffix|done]. }
  destruct c as [j e|j e m|j e n|j e v|j st n]; cbn match;
    try (rewrite (decide_False (P := s ∈ _)) by (apply other_type; by rewrite Ht); done).
  - rewrite (names_series o j e "" (λ jo, S_events jo e)) by (intros jo; apply (N jo e "" (or_introl eq_refl))).
    change (_ ++ _) with (series_of o (CEvent j e)). rewrite each_cmd by done. by case_decide.
  - rewrite (names_series o j e "error" (λ jo, S_errors jo e)) by (intros jo; apply (N jo e "error" (or_intror eq_refl))).
    change (_ ++ _) with (series_of o (CEventErr j e m)). rewrite each_cmd by done. by case_decide.
Qed.
Lemma thm_durations_series o s l : o_san o = sanitize_key → plain_series s → series_type s = "ms" → plain_cmds o l →
  durations o (series_name o s) l = map duration_of (filter (λ c, s ∈ series_of o c) l).
Proof.
  intros Ho Hs Ht Hl. unfold durations. induction Hl as [|c l Hc _ IH]; [done|]. cbn [map concat]. rewrite IH, filter_cons.
  destruct c as [j e|j e m|j e n|j e v|j st n]; cbn match;
    try (rewrite (decide_False (P := s ∈ _)) by (apply other_type; by rewrite Ht); done).
  - rewrite (names_series o j e "" (λ jo, S_timings jo e)) by (intros jo; apply empty_suffix).
    change (_ ++ _) with (series_of o (CTiming j e n)) at 2. rewrite each_cmd by done. by case_decide.
  - change ([metric_name o [j; status_string st]]) with (map (series_name o) (series_of o (CComplete j st n))). rewrite each_cmd by done. by case_decide.
Qed.
Lemma thm_gauged_series o s l : o_san o = sanitize_key → plain_series s → series_type s = "g" → plain_cmds o l →
  gauged o (series_name o s) l = map value_of (filter (λ c, s ∈ series_of o c) l).
Proof.
  intros Ho Hs Ht Hl. unfold gauged. induction Hl as [|c l Hc _ IH]; [done|]. cbn [map concat]. rewrite IH, filter_cons.
  destruct c as [j e|j e m|j e n|j e v|j st n]; cbn match;
    try (rewrite (decide_False (P := s ∈ _)) by (apply other_type; by rewrite Ht); done).
  rewrite (names_series o j e "" (λ jo, S_gauges jo e)) by (intros jo; apply empty_suffix).
  change (_ ++ _) with (series_of o (CGauge j e v)) at 2. rewrite each_cmd by done. by case_decide.
Qed.

(** ** for the theorems *)
Lemma thm_server_counter o h s name : clean o → all_fit o (sop_cmds h) → sd_run o sd0 (h ++ [DoFlush]) = Ok s →
  counter name (sd_sent s) = counts o name (sop_cmds h).
Proof. intros Hc Hf Hr. apply thm_counter; [done..|]. by apply flushed_all. Qed.
Lemma thm_server_timings o h s name : clean o → all_fit o (sop_cmds h) → fine (sop_cmds h) → sd_run o sd0 (h ++ [DoFlush]) = Ok s →
  Forall2 ms_of (timings name (sd_sent s)) (durations o name (sop_cmds h)).
Proof. intros Hc Hf Hi Hr. apply thm_timings; [done..|]. by apply flushed_all. Qed.
Lemma thm_server_gauge o h s name vs v : clean o → short_codec (o_short o) → all_fit o (sop_cmds h) → sd_run o sd0 (h ++ [DoFlush]) = Ok s →
  gauged o name (sop_cmds h) = vs ++ [v] → SpecFloat.valid_binary 53 1024 v = true → unsigned v →
  ∃ n d, gauge name (sd_sent s) = (n, d) ∧ 0 < d ∧ (Rabs (IZR n / IZR d - fval v) <= 0.005)%R.
Proof. intros Hc Hs Hf Hr. apply thm_gauge; [done..|]. by apply flushed_all. Qed.
Lemma thm_server_drain o tr1 i tr2 s1 s2 s3 name : clean o → all_fit o (accepted (tr1 ++ tr2)) →
  lsteps o lst0 tr1 s1 → l_wd s1 = [] →
  lsteps o s1 (ADrainCall i :: tr2) s2 → no_call is_drain_call tr2 →
  lstep o s2 (ADrainDone i) s3 →
  counts o name (accepted tr1) ≤ counter name (sd_sent (l_sd s3)) ≤ counts o name (accepted (tr1 ++ tr2)).
Proof.
  intros Hc Hf H1 H2 H3 H4 H5.
  assert (accepted (tr1 ++ ADrainCall i :: tr2) = accepted (tr1 ++ tr2)) as E by (unfold accepted; by rewrite !omap_app).
  rewrite <- E. apply thm_drained; [done|by rewrite E| |by eapply PStatsdLoop.drain_delivers].
  unfold accepted. rewrite omap_app. by apply prefix_app_r.
Qed.
