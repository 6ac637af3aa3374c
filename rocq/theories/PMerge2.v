(** * Merging the aggregates of several hosts *)
From Verif Require Import MMerge SMerge PAgg PContent PContent2 PAgg2 PMerge.

Lemma omap_perm {A B} (f : A → option B) l1 l2 : l1 ≡ₚ l2 → omap f l1 ≡ₚ omap f l2.
Proof. intros ->. done. Qed.

Lemma zsum_perm l1 l2 : l1 ≡ₚ l2 → zsum l1 = zsum l2.
Proof. induction 1; simpl; try fold (zsum l) (zsum l') in *; lia. Qed.

Lemma is_min_perm m l1 l2 : l1 ≡ₚ l2 → is_min m l1 → is_min m l2.
Proof. unfold is_min. intros Hp [H1 H2]. setoid_rewrite <- Hp. done. Qed.
Lemma is_max_perm m l1 l2 : l1 ≡ₚ l2 → is_max m l1 → is_max m l2.
Proof. unfold is_max. intros Hp [H1 H2]. setoid_rewrite <- Hp. done. Qed.

Lemma is_min_app a b l1 l2 :
  is_min a l1 → is_min b l2 → is_min (if b <? a then b else a) (l1 ++ l2).
Proof.
  intros [H1 H2] [H3 H4]. split.
  - apply elem_of_app. destruct (b <? a); auto.
  - intros x [Hx|Hx]%elem_of_app; [apply H2 in Hx|apply H4 in Hx];
      destruct (Z.ltb_spec b a); lia.
Qed.
Lemma is_max_app a b l1 l2 :
  is_max a l1 → is_max b l2 → is_max (if a <? b then b else a) (l1 ++ l2).
Proof.
  intros [H1 H2] [H3 H4]. split.
  - apply elem_of_app. destruct (a <? b); auto.
  - intros x [Hx|Hx]%elem_of_app; [apply H2 in Hx|apply H4 in Hx];
      destruct (Z.ltb_spec a b); lia.
Qed.

(** [t] has the count and sum of [l], and its extremes when [g] *)
Record tlooks (g : Prop) (t : timer) (l : list Z) : Prop := {
  tl_count : t_count t = i64 (length l);
  tl_sum : t_sum t = w64 (zsum l);
  tl_ext : g → Z.of_nat (length l) ≤ 2 ^ 64 → is_min (t_min t) l ∧ is_max (t_max t) l }.

Lemma tlooks_merge g t1 t2 l1 l2 :
  tlooks g t1 l1 → tlooks g t2 l2 → tlooks g (timer_merge t1 t2) (l1 ++ l2).
Proof.
  intros [C1 S1 E1] [C2 S2 E2]. split; simpl.
  - rewrite C1, C2. unfold i64. rewrite w64_add_l, w64_add_r, app_length. f_equal. lia.
  - rewrite S1, S2. rewrite w64_add_l, w64_add_r, zsum_app. done.
  - intros Hg. rewrite app_length. intros Hl.
    destruct (E1 Hg) as [? ?]; [lia|]. destruct (E2 Hg) as [? ?]; [lia|].
    split; [by apply is_min_app|by apply is_max_app].
Qed.

Lemma tlooks_perm g t l1 l2 : l1 ≡ₚ l2 → tlooks g t l1 → tlooks g t l2.
Proof.
  intros Hp [C S E]. split.
  - by rewrite <- Hp.
  - by rewrite <- (zsum_perm _ _ Hp).
  - intros Hg Hl. rewrite <- (Permutation_length Hp) in Hl. destruct (E Hg Hl).
    split; [by eapply is_min_perm|by eapply is_max_perm].
Qed.

Lemma tlooks_of (g : Prop) l : (g → l ≠ []) → tlooks g (timer_of l) l.
Proof.
  intros Hg. split; [apply timer_of_count|apply timer_of_sum|].
  intros HG Hl. apply timer_of_minmax; auto.
Qed.

Record mlooks (m : amaps) (L : list cmd) : Prop := {
  ml_ev : ∀ e, am_events m !! e = counter_entry (length (events_of e L));
  ml_er : ∀ e, ec_count <$> am_errs m !! e = counter_entry (length (errors_of e L));
  ml_tm : ∀ e, match am_timers m !! e with
               | None => timings_of e L = []
               | Some t => timings_of e L ≠ [] ∧ tlooks True t (timings_of e L)
               end }.

Lemma counter_entry_0 : counter_entry 0 = None.
Proof. done. Qed.
Lemma counter_entry_pos n : n ≠ 0%nat → counter_entry n = Some (i64 n).
Proof. intros H. unfold counter_entry. by rewrite decide_False. Qed.
Lemma counter_entry_None n : counter_entry n = None ↔ n = 0%nat.
Proof. unfold counter_entry. destruct (decide (n = 0%nat)); split; try done. Qed.
Lemma counter_entry_Some n z : counter_entry n = Some z → z = i64 n ∧ n ≠ 0%nat.
Proof. unfold counter_entry. destruct (decide (n = 0%nat)); [done|]. naive_solver. Qed.

Lemma i64_add m n : w64 (i64 m + i64 n) = i64 (m + n).
Proof. unfold i64. rewrite w64_add_l, w64_add_r. f_equal. lia. Qed.

Lemma events_of_app e L1 L2 : events_of e (L1 ++ L2) = events_of e L1 ++ events_of e L2.
Proof. apply omap_app. Qed.
Lemma errors_of_app e L1 L2 : errors_of e (L1 ++ L2) = errors_of e L1 ++ errors_of e L2.
Proof. apply omap_app. Qed.
Lemma timings_of_app e L1 L2 : timings_of e (L1 ++ L2) = timings_of e L1 ++ timings_of e L2.
Proof. apply omap_app. Qed.

Lemma mlooks_merge m1 m2 L1 L2 : mlooks m1 L1 → mlooks m2 L2 → mlooks (amaps_merge m1 m2) (L1 ++ L2).
Proof.
  intros [E1 R1 T1] [E2 R2 T2]. split; intros e; cbn [amaps_merge am_events am_errs am_timers].
  - rewrite (merge_events_lookup _ _ (am_events m2)) by apply enumerates_self.
    rewrite E1, E2, events_of_app, app_length.
    destruct (counter_entry (length (events_of e L1))) eqn:H1, (counter_entry (length (events_of e L2))) eqn:H2;
      repeat match goal with
      | H : counter_entry _ = Some _ |- _ => apply counter_entry_Some in H as [-> ?]
      | H : counter_entry _ = None |- _ => rewrite counter_entry_None in H
      end.
    + rewrite i64_add, counter_entry_pos by lia. done.
    + rewrite counter_entry_pos by lia. do 2 f_equal. lia.
    + rewrite counter_entry_pos by lia. f_equal. rewrite H1. unfold i64. apply w64_w64.
    + rewrite H1, H2. done.
  - rewrite (merge_errs_char _ _ (am_errs m2)) by apply enumerates_self.
    rewrite lookup_union_with. specialize (R1 e). specialize (R2 e).
    rewrite errors_of_app, app_length.
    destruct (am_errs m1 !! e) as [c1|], (am_errs m2 !! e) as [c2|]; simpl in *; symmetry in R1, R2;
      repeat match goal with
      | H : counter_entry _ = Some _ |- _ => apply counter_entry_Some in H as [? ?]
      | H : counter_entry _ = None |- _ => rewrite counter_entry_None in H
      end.
    + rewrite errc_merge_count, H, H1, i64_add, counter_entry_pos by lia. done.
    + rewrite counter_entry_pos by lia. rewrite H. do 2 f_equal. lia.
    + rewrite counter_entry_pos by lia. rewrite H. do 2 f_equal. lia.
    + rewrite R1, R2. done.
  - rewrite (merge_timers_char _ _ (am_timers m2)) by apply enumerates_self.
    rewrite lookup_union_with. specialize (T1 e). specialize (T2 e).
    rewrite timings_of_app.
    destruct (am_timers m1 !! e) as [c1|], (am_timers m2 !! e) as [c2|]; simpl in *.
    + destruct T1 as [N1 T1], T2 as [N2 T2]. split; [by destruct (timings_of e L1)|]. by apply tlooks_merge.
    + rewrite T2, app_nil_r. done.
    + rewrite T1. done.
    + rewrite T1, T2. done.
Qed.

Lemma mlooks_perm m L1 L2 : L1 ≡ₚ L2 → mlooks m L1 → mlooks m L2.
Proof.
  intros Hp [E R T]. split; intros e.
  - rewrite E. unfold events_of. by rewrite Hp.
  - rewrite R. unfold errors_of. by rewrite Hp.
  - specialize (T e). assert (timings_of e L1 ≡ₚ timings_of e L2) as Ht by (unfold timings_of; by rewrite Hp).
    destruct (am_timers m !! e).
    + destruct T as [Hne T]. split.
      * intros Hn. rewrite Hn in Ht. symmetry in Ht. by apply Permutation_nil in Ht.
      * by eapply tlooks_perm.
    + rewrite T in Ht. by apply Permutation_nil in Ht.
Qed.

Lemma mlooks_of L : mlooks (am_of L) L.
Proof.
  split; intros e.
  - apply am_of_events.
  - rewrite am_of_errs. destruct (errors_of e L) eqn:He; [done|]. rewrite <- He. simpl.
    rewrite errc_of_count, counter_entry_pos; [done|]. by rewrite He.
  - rewrite am_of_timers. destruct (timings_of e L) eqn:He; [done|]. rewrite <- He.
    assert (timings_of e L ≠ []) by (by rewrite He). split; [done|]. by apply tlooks_of.
Qed.

Record jlooks (g : Prop) (j : jobagg) (L : list cmd) : Prop := {
  jl_maps : mlooks (j_maps j) L;
  jl_timer : tlooks g (j_timer j) (map snd (completions_of L));
  jl_s : j_success j = i64 (length (completions_with Success L));
  jl_v : j_verror j = i64 (length (completions_with ValidationError L));
  jl_p : j_panic j = i64 (length (completions_with Panic L));
  jl_e : j_error j = i64 (length (completions_with Error L));
  jl_j : j_junk j = i64 (length (completions_with Junk L)) }.

Lemma completions_of_app L1 L2 : completions_of (L1 ++ L2) = completions_of L1 ++ completions_of L2.
Proof. apply omap_app. Qed.
Lemma completions_with_app st L1 L2 :
  completions_with st (L1 ++ L2) = completions_with st L1 ++ completions_with st L2.
Proof. unfold completions_with. by rewrite completions_of_app, filter_app. Qed.

Lemma jlooks_merge g j1 j2 L1 L2 :
  jlooks g j1 L1 → jlooks g j2 L2 → jlooks g (job_merge j1 j2) (L1 ++ L2).
Proof.
  intros [M1 T1 A1 B1 C1 D1 E1] [M2 T2 A2 B2 C2 D2 E2]. split;
    cbn [job_merge j_maps j_timer j_success j_verror j_panic j_error j_junk];
    rewrite ?completions_with_app, ?app_length, <- ?i64_add; try congruence.
  - by apply mlooks_merge.
  - rewrite completions_of_app, map_app. by apply tlooks_merge.
Qed.

Lemma jlooks_perm g j L1 L2 : L1 ≡ₚ L2 → jlooks g j L1 → jlooks g j L2.
Proof.
  intros Hp [M T A B C D E].
  assert (completions_of L1 ≡ₚ completions_of L2) as Hq by (unfold completions_of; by rewrite Hp).
  split.
  - by eapply mlooks_perm.
  - eapply tlooks_perm; [|done]. by rewrite Hq.
  - rewrite A. unfold completions_with. by rewrite Hq.
  - rewrite B. unfold completions_with. by rewrite Hq.
  - rewrite C. unfold completions_with. by rewrite Hq.
  - rewrite D. unfold completions_with. by rewrite Hq.
  - rewrite E. unfold completions_with. by rewrite Hq.
Qed.

Lemma jlooks_of (g : Prop) L : (g → completions_of L ≠ []) → jlooks g (job_of L) L.
Proof.
  intros Hg. destruct (job_of_counters L) as (A & B & C & D & E). split; try done.
  - rewrite job_of_maps. apply mlooks_of.
  - rewrite job_of_timer. apply tlooks_of. intros G. specialize (Hg G). by destruct (completions_of L).
Qed.

Record looks (g : string → Prop) (a : ia) (L : list cmd) : Prop := {
  lk_maps : mlooks (ia_maps a) L;
  lk_jobs : ∀ j, match ia_jobs a !! j with
                 | None => of_job j L = []
                 | Some ja => of_job j L ≠ [] ∧ jlooks (g j) ja (of_job j L)
                 end }.

Lemma of_job_app j L1 L2 : of_job j (L1 ++ L2) = of_job j L1 ++ of_job j L2.
Proof. apply filter_app. Qed.

Lemma looks_merge g a b L1 L2 : looks g a L1 → looks g b L2 → looks g (ia_merge a b) (L1 ++ L2).
Proof.
  intros [M1 J1] [M2 J2]. split.
  - by apply mlooks_merge.
  - intros j. rewrite ia_merge_jobs, of_job_app. specialize (J1 j). specialize (J2 j).
    destruct (ia_jobs a !! j), (ia_jobs b !! j).
    + destruct J1 as [N1 J1], J2 as [N2 J2]. split; [by destruct (of_job j L1)|]. by apply jlooks_merge.
    + by rewrite J2, app_nil_r.
    + by rewrite J1.
    + by rewrite J1, J2.
Qed.

Lemma looks_perm g a L1 L2 : L1 ≡ₚ L2 → looks g a L1 → looks g a L2.
Proof.
  intros Hp [M J]. split; [by eapply mlooks_perm|].
  intros j. specialize (J j). assert (of_job j L1 ≡ₚ of_job j L2) as Hq by (unfold of_job; by rewrite Hp).
  destruct (ia_jobs a !! j).
  - destruct J as [Hne J]. split.
    + intros Hn. rewrite Hn in Hq. symmetry in Hq. by apply Permutation_nil in Hq.
    + by eapply jlooks_perm.
  - rewrite J in Hq. by apply Permutation_nil in Hq.
Qed.

Lemma looks_of (g : string → Prop) s L :
  (∀ j, g j → of_job j L = [] ∨ completions_of (of_job j L) ≠ []) → looks g (ia_of s L) L.
Proof.
  intros Hg. split; [rewrite ia_of_maps; apply mlooks_of|].
  intros j. rewrite ia_of_jobs. destruct (of_job j L) eqn:Ho; [done|]. rewrite <- Ho.
  assert (of_job j L ≠ []) as Hne by (by rewrite Ho). split; [done|]. apply jlooks_of.
  intros G. destruct (Hg j G); done.
Qed.

Lemma looks_new g s : looks g (new_ia s) [].
Proof. apply (looks_of g s []). auto. Qed.

Lemma looks_merge_all (g : string → Prop) s (is : list ia) (ls : list (list cmd)) :
  Forall2 (looks g) is ls → looks g (merge_all s is) (concat ls).
Proof.
  unfold merge_all. intros HF.
  assert (∀ a L, looks g a L → looks g (fold_left ia_merge is a) (L ++ concat ls)) as H.
  { induction HF as [|i l is ls Hi HF IH]; intros a L Ha; simpl; [by rewrite app_nil_r|].
    rewrite app_assoc. apply IH. by apply looks_merge. }
  apply (H (new_ia s) [] (looks_new g s)).
Qed.

(** two structures that look like the same commands have the same counters *)
Lemma mlooks_cs m1 m2 L : mlooks m1 L → mlooks m2 L → cs_maps m1 = cs_maps m2.
Proof.
  intros [E1 R1 T1] [E2 R2 T2]. unfold cs_maps. f_equal; [f_equal|].
  - apply map_eq. intros e. by rewrite E1, E2.
  - apply map_eq. intros e. rewrite !lookup_fmap. by rewrite R1, R2.
  - apply map_eq. intros e. rewrite !lookup_fmap. specialize (T1 e). specialize (T2 e).
    destruct (am_timers m1 !! e), (am_timers m2 !! e); simpl.
    + destruct T1 as [_ [C1 S1 _]], T2 as [_ [C2 S2 _]]. unfold cs_timer. congruence.
    + by destruct T1 as [? _].
    + by destruct T2 as [? _].
    + done.
Qed.

Lemma looks_cs g a b L : looks g a L → looks g b L → cs_ia a = cs_ia b.
Proof.
  intros [M1 J1] [M2 J2]. unfold cs_ia. f_equal; [|by eapply mlooks_cs].
  apply map_eq. intros j. rewrite !lookup_fmap. specialize (J1 j). specialize (J2 j).
  destruct (ia_jobs a !! j), (ia_jobs b !! j); simpl.
  - destruct J1 as [_ [X1 [C1 S1 _] A1 B1 D1 E1 F1]], J2 as [_ [X2 [C2 S2 _] A2 B2 D2 E2 F2]].
    unfold cs_job, cs_timer. rewrite (mlooks_cs _ _ _ X1 X2). congruence.
  - by destruct J1 as [? _].
  - by destruct J2 as [? _].
  - done.
Qed.

Lemma Forall2_map_r {A B C} (P : A → C → Prop) (f : B → C) l k :
  Forall2 (λ a b, P a (f b)) l k → Forall2 P l (map f k).
Proof. induction 1; simpl; constructor; auto. Qed.

(** ** theorems *)
Lemma reports_looks d retain h t s i (g : string → Prop) :
  0 < d → d ≤ retain → reports d retain h t s i →
  (∀ j, g j → of_job j (cmds_in d s h) = [] ∨ completions_of (of_job j (cmds_in d s h)) ≠ []) →
  looks g i (cmds_in d s h).
Proof.
  intros Hd Hr (Hc & out & Hg & Hi & <-) HG.
  destruct (pull_in _ _ _ _ _ Hd Hr Hc Hg _ Hi) as [st ->]. rewrite ia_of_start in *.
  by apply looks_of.
Qed.

Lemma thm_split_history d retain s (hosts : list (list (Z * aop) * Z)) (is : list ia) hw tw iw :
  0 < d → d ≤ retain →
  Forall2 (λ i ht, reports d retain ht.1 ht.2 s i) is hosts →
  reports d retain hw tw s iw →
  cmds_in d s hw ≡ₚ concat (map (λ ht, cmds_in d s ht.1) hosts) →
  cs_ia (merge_all s is) = cs_ia iw.
Proof.
  intros Hd Hr HF Hw Hp.
  eapply (looks_cs (λ _, False)).
  - apply (looks_merge_all _ s is (map (λ ht, cmds_in d s ht.1) hosts)). apply Forall2_map_r.
    eapply Forall2_impl; [exact HF|]. intros i [h t] Hrep. simpl in *.
    eapply reports_looks; [done|done|done|done].
  - eapply looks_perm; [exact Hp|]. eapply reports_looks; [done|done|done|done].
Qed.

(** minima and maxima of named timers, and of jobs every host has completed *)
Lemma thm_split_extremes d retain s (hosts : list (list (Z * aop) * Z)) (is : list ia) :
  0 < d → d ≤ retain →
  Forall2 (λ i ht, reports d retain ht.1 ht.2 s i) is hosts →
  let all := concat (map (λ ht, cmds_in d s ht.1) hosts) in
  (∀ e t, am_timers (ia_maps (merge_all s is)) !! e = Some t →
     Z.of_nat (length (timings_of e all)) ≤ 2 ^ 64 →
     is_min (t_min t) (timings_of e all) ∧ is_max (t_max t) (timings_of e all)) ∧
  (∀ j ja, ia_jobs (merge_all s is) !! j = Some ja →
     (∀ e t, am_timers (j_maps ja) !! e = Some t →
        let l := timings_of e (of_job j all) in
        Z.of_nat (length l) ≤ 2 ^ 64 → is_min (t_min t) l ∧ is_max (t_max t) l) ∧
     ((∀ ht, ht ∈ hosts → of_job j (cmds_in d s ht.1) = [] ∨
                          completions_of (of_job j (cmds_in d s ht.1)) ≠ []) →
      let l := map snd (completions_of (of_job j all)) in
      Z.of_nat (length l) ≤ 2 ^ 64 →
      is_min (t_min (j_timer ja)) l ∧ is_max (t_max (j_timer ja)) l)).
Proof.
  intros Hd Hr HF all.
  set (g := λ j, ∀ ht, ht ∈ hosts → of_job j (cmds_in d s ht.1) = [] ∨
                          completions_of (of_job j (cmds_in d s ht.1)) ≠ []).
  assert (looks g (merge_all s is) all) as [M J].
  { apply (looks_merge_all _ s is (map (λ ht, cmds_in d s ht.1) hosts)). apply Forall2_map_r.
    assert (∀ ht, ht ∈ hosts → ∀ j, g j → of_job j (cmds_in d s ht.1) = [] ∨
                          completions_of (of_job j (cmds_in d s ht.1)) ≠ []) as HG by (unfold g; auto).
    clearbody g. revert HG. clear all.
    induction HF as [|i ht is hs Hi HF IH]; intros HG; [constructor|].
    constructor.
    - eapply reports_looks; [done|done|done|]. apply HG. by left.
    - apply IH. intros ht' Hht'. apply HG. by right. }
  split.
  - intros e t Ht Hl. destruct M as [_ _ T]. specialize (T e). rewrite Ht in T.
    destruct T as [_ [_ _ X]]. by apply X.
  - intros j ja Hj. specialize (J j). rewrite Hj in J. destruct J as [_ [JM JT _ _ _ _ _]]. split.
    + intros e t Ht l Hl. destruct JM as [_ _ T]. specialize (T e). rewrite Ht in T.
      destruct T as [_ [_ _ X]]. by apply X.
    + intros G l Hl. destruct JT as [_ _ X]. by apply X.
Qed.

Lemma thm_timer_merge l1 l2 t1 t2 :
  summarises l1 t1 → summarises l2 t2 →
  is_min (t_min (timer_merge t1 t2)) (l1 ++ l2) ∧ is_max (t_max (timer_merge t1 t2)) (l1 ++ l2).
Proof.
  intros [_ _ _ A1 B1] [_ _ _ A2 B2]. split; [by apply is_min_app|by apply is_max_app].
Qed.

(** ** int64s stay int64s *)
Lemma int64_timer_merge a b : int64_timer a → int64_timer b → int64_timer (timer_merge a b).
Proof.
  intros (A & B & C & D) (A' & B' & C' & D'). unfold int64_timer. simpl.
  split; [apply w64_range|]. split; [apply w64_range|].
  split; [destruct (_ <? _)|destruct (_ <? _)]; done.
Qed.
Lemma int64_maps_merge a b : int64_maps a → int64_maps b → int64_maps (amaps_merge a b).
Proof.
  intros (A & B & C) (A' & B' & C'). split; [|split]; intros k; simpl.
  - intros v. rewrite (merge_events_lookup _ _ (am_events b)) by apply enumerates_self.
    destruct (am_events a !! k) eqn:H1, (am_events b !! k) eqn:H2; intros [= <-];
      first [apply w64_range|eauto].
  - intros t. rewrite (merge_timers_char _ _ (am_timers b)), lookup_union_with by apply enumerates_self.
    destruct (am_timers a !! k) eqn:H1, (am_timers b !! k) eqn:H2; intros [= <-];
      first [apply int64_timer_merge; eauto|eauto].
  - intros c. rewrite (merge_errs_char _ _ (am_errs b)), lookup_union_with by apply enumerates_self.
    destruct (am_errs a !! k) eqn:H1, (am_errs b !! k) eqn:H2; intros [= <-];
      first [rewrite errc_merge_count; apply w64_range|eauto].
Qed.
Lemma int64_job_merge a b : int64_job a → int64_job b → int64_job (job_merge a b).
Proof.
  intros (A & B & C) (A' & B' & C'). split; [by apply int64_maps_merge|].
  split; [by apply int64_timer_merge|]. simpl. repeat split; apply w64_range.
Qed.
Lemma int64_ia_merge a b : int64_ia a → int64_ia b → int64_ia (ia_merge a b).
Proof.
  intros (A & B & C) (A' & B' & C'). split; [apply w64_range|]. split; [by apply int64_maps_merge|].
  intros k j. rewrite ia_merge_jobs.
  destruct (ia_jobs a !! k) eqn:H1, (ia_jobs b !! k) eqn:H2; intros [= <-];
    first [apply int64_job_merge; eauto|eauto].
Qed.

(** ** C22 *)
Lemma thm_merge_adds a b :
  int64_ia a → int64_ia b →
  let m := ia_merge a b in
  ia_start m = ia_start a ∧ ia_serial m = w64 (ia_serial a + 1) ∧
  (∀ e, ev (ia_maps m) e = w64 (ev (ia_maps a) e + ev (ia_maps b) e)) ∧
  (∀ e, er (ia_maps m) e = w64 (er (ia_maps a) e + er (ia_maps b) e)) ∧
  (∀ e, t_count (tm (ia_maps m) e) = w64 (t_count (tm (ia_maps a) e) + t_count (tm (ia_maps b) e)) ∧
        t_sum (tm (ia_maps m) e) = w64 (t_sum (tm (ia_maps a) e) + t_sum (tm (ia_maps b) e))) ∧
  (∀ e, am_gauges (ia_maps m) !! e =
        match am_gauges (ia_maps b) !! e with Some v => Some v | None => am_gauges (ia_maps a) !! e end) ∧
  dom (am_events (ia_maps m)) = dom (am_events (ia_maps a)) ∪ dom (am_events (ia_maps b)) ∧
  dom (am_errs (ia_maps m)) = dom (am_errs (ia_maps a)) ∪ dom (am_errs (ia_maps b)) ∧
  dom (am_timers (ia_maps m)) = dom (am_timers (ia_maps a)) ∪ dom (am_timers (ia_maps b)) ∧
  dom (am_gauges (ia_maps m)) = dom (am_gauges (ia_maps a)) ∪ dom (am_gauges (ia_maps b)) ∧
  dom (ia_jobs m) = dom (ia_jobs a) ∪ dom (ia_jobs b).
Proof.
  intros (_ & Ma & _) (_ & Mb & _) m. unfold m. cbn [ia_merge ia_start ia_serial ia_maps].
  do 2 (split; [done|]).
  split; [intros e; by apply am_merge_events|].
  split; [intros e; by apply am_merge_errs|].
  split; [intros e; by apply am_merge_timers|].
  split; [intros e; by apply am_merge_gauges|].
  destruct (am_merge_keys (ia_maps a) (ia_maps b)) as (K1 & K2 & K3 & K4).
  do 4 (split; [done|]).
  apply set_eq. intros k. rewrite elem_of_union, !elem_of_dom. unfold is_Some.
  rewrite ia_merge_jobs.
  destruct (ia_jobs a !! k), (ia_jobs b !! k); naive_solver.
Qed.

Lemma thm_merge_adds_job a b j :
  int64_ia a → int64_ia b →
  let ja := mget (ia_jobs a) j job0 in
  let jb := mget (ia_jobs b) j job0 in
  let m := mget (ia_jobs (ia_merge a b)) j job0 in
  j_success m = w64 (j_success ja + j_success jb) ∧
  j_verror m = w64 (j_verror ja + j_verror jb) ∧
  j_panic m = w64 (j_panic ja + j_panic jb) ∧
  j_error m = w64 (j_error ja + j_error jb) ∧
  j_junk m = w64 (j_junk ja + j_junk jb) ∧
  t_count (j_timer m) = w64 (t_count (j_timer ja) + t_count (j_timer jb)) ∧
  t_sum (j_timer m) = w64 (t_sum (j_timer ja) + t_sum (j_timer jb)) ∧
  (∀ e, ev (j_maps m) e = w64 (ev (j_maps ja) e + ev (j_maps jb) e)) ∧
  (∀ e, er (j_maps m) e = w64 (er (j_maps ja) e + er (j_maps jb) e)) ∧
  (∀ e, t_count (tm (j_maps m) e) = w64 (t_count (tm (j_maps ja) e) + t_count (tm (j_maps jb) e)) ∧
        t_sum (tm (j_maps m) e) = w64 (t_sum (tm (j_maps ja) e) + t_sum (tm (j_maps jb) e))) ∧
  (∀ e, am_gauges (j_maps m) !! e =
        match am_gauges (j_maps jb) !! e with Some v => Some v | None => am_gauges (j_maps ja) !! e end).
Proof.
  intros (_ & _ & Ja) (_ & _ & Jb) ja jb m. unfold m, ja, jb, mget. rewrite ia_merge_jobs.
  destruct (ia_jobs a !! j) as [x|] eqn:Hx, (ia_jobs b !! j) as [y|] eqn:Hy;
    cbn [default from_option id job_merge j_success j_verror j_panic j_error j_junk j_timer j_maps
         timer_merge t_count t_sum].
  - apply Ja in Hx as (Mx & _). apply Jb in Hy as (My & _).
    do 7 (split; [done|]).
    split; [intros e; by apply am_merge_events|].
    split; [intros e; by apply am_merge_errs|].
    split; [intros e; by apply am_merge_timers|].
    intros e. apply am_merge_gauges.
  - apply Ja in Hx as ((Me & Mt & Mr) & (Tc & Ts & _) & C). unfold ev, er, tm, mget. cbn.
    rewrite !Z.add_0_r, !w64_id by tauto. do 7 (split; [done|]).
    split; [|split; [|split]]; intros e.
    + rewrite lookup_empty. simpl. rewrite Z.add_0_r. destruct (am_events (j_maps x) !! e) eqn:H; [|done].
      symmetry. apply w64_id. eauto.
    + rewrite lookup_empty. simpl. rewrite Z.add_0_r. destruct (am_errs (j_maps x) !! e) eqn:H; [|done].
      symmetry. apply w64_id. eauto.
    + rewrite lookup_empty. simpl. rewrite !Z.add_0_r. destruct (am_timers (j_maps x) !! e) eqn:H; [|done].
      apply Mt in H as (? & ? & _). split; symmetry; by apply w64_id.
    + by rewrite lookup_empty.
  - apply Jb in Hy as ((Me & Mt & Mr) & (Tc & Ts & _) & C). unfold ev, er, tm, mget. cbn.
    rewrite !w64_id by tauto. do 7 (split; [done|]).
    split; [|split; [|split]]; intros e; rewrite ?lookup_empty; simpl.
    + destruct (am_events (j_maps y) !! e) eqn:H; [|done]. symmetry. apply w64_id. eauto.
    + destruct (am_errs (j_maps y) !! e) eqn:H; [|done]. symmetry. apply w64_id. eauto.
    + destruct (am_timers (j_maps y) !! e) eqn:H; [|done].
      apply Mt in H as (? & ? & _). split; symmetry; by apply w64_id.
    + by destruct (am_gauges (j_maps y) !! e).
  - cbn. unfold ev, er, tm, mget. cbn. do 7 (split; [done|]).
    split; [|split; [|split]]; intros e; rewrite ?lookup_empty; done.
Qed.

(** ** numbers reported by a sink are int64s *)
Definition cmd_int64 (c : cmd) : Prop :=
  match c with CTiming _ _ n | CComplete _ _ n => in_int64 n | _ => True end.

Lemma int64_timer_ingest t n : int64_timer t → in_int64 n → int64_timer (timer_ingest t n).
Proof.
  intros (A & B & C & D) Hn. unfold int64_timer, timer_ingest. cbn [t_count t_sum t_min t_max].
  split; [apply w64_range|]. split; [apply w64_range|].
  split; [destruct (_ || _)|destruct (_ || _)]; done.
Qed.
Lemma int64_0 : in_int64 0.
Proof. unfold in_int64. lia. Qed.
Lemma int64_maps0 : int64_maps amaps0.
Proof. split; [|split]; intros k v H; simpl in H; by rewrite lookup_empty in H. Qed.
Lemma int64_timer0 : int64_timer timer0.
Proof. repeat split; simpl; lia. Qed.
Lemma int64_job0 : int64_job job0.
Proof. split; [apply int64_maps0|]. split; [apply int64_timer0|]. repeat split; simpl; lia. Qed.

Lemma int64_am_apply m c : int64_maps m → cmd_int64 c → int64_maps (am_apply m c).
Proof.
  intros (A & B & C) Hc. destruct c; simpl in *; split_and!; simpl; try done; intros k v.
  - rewrite lookup_insert_Some. intros [[_ <-]|[_ H]]; [apply w64_range|eauto].
  - rewrite lookup_insert_Some. intros [[_ <-]|[_ H]]; [|eauto].
    unfold increment_and_add_error. rewrite add_error_count. apply w64_range.
  - rewrite lookup_insert_Some. intros [[_ <-]|[_ H]]; [|eauto].
    apply int64_timer_ingest; [|done]. unfold mget. destruct (am_timers m !! event) eqn:H; simpl; [eauto|].
    apply int64_timer0.
Qed.
Lemma int64_job_apply j c : int64_job j → cmd_int64 c → int64_job (job_apply j c).
Proof.
  intros (A & B & C) Hc. destruct c.
  1-4: split; [by apply (int64_am_apply (j_maps j) _ A Hc)|by split].
  unfold job_apply, job_ingest. repeat case_match; unfold int64_job; simpl;
    (split; [done|]; split; [by apply int64_timer_ingest|]; split_and!; first [apply w64_range|tauto]).
Qed.
Lemma int64_apply a c : int64_ia a → cmd_int64 c → int64_ia (ia_apply a c).
Proof.
  intros (A & B & C) Hc. unfold int64_ia. rewrite ia_apply_maps, ia_apply_serial, ia_apply_jobs.
  split; [apply w64_range|]. split; [by apply int64_am_apply|].
  intros k j. rewrite lookup_insert_Some. intros [[_ <-]|[_ H]]; [|eauto].
  apply int64_job_apply; [|done]. unfold mget. destruct (ia_jobs a !! cmd_job c) eqn:H; simpl; [eauto|].
  apply int64_job0.
Qed.
Lemma int64_ia_of s l : (∀ c, c ∈ l → cmd_int64 c) → int64_ia (ia_of s l).
Proof.
  induction l as [|c l IH] using rev_ind; intros Hl.
  - split; [apply int64_0|]. split; [apply int64_maps0|]. simpl. intros k j H. by rewrite lookup_empty in H.
  - rewrite ia_of_snoc. apply int64_apply.
    + apply IH. intros x Hx. apply Hl, elem_of_app. auto.
    + apply Hl, elem_of_app. right. by left.
Qed.

Lemma elem_of_cmds_in d s h c : c ∈ cmds_in d s h → ∃ t, (t, OpCmd c) ∈ h.
Proof.
  unfold cmds_in. rewrite elem_of_list_omap. intros ([t o] & Hin & Hm). simpl in Hm.
  destruct o; try done. case_bool_decide; [|done]. injection Hm as ->. eauto.
Qed.

Lemma thm_reports_int64 d retain h t s i :
  0 < d → d ≤ retain → reports d retain h t s i →
  (∀ x, x ∈ h → match x.2 with
                | OpCmd (CTiming _ _ n) | OpCmd (CComplete _ _ n) => in_int64 n
                | _ => True
                end) →
  int64_ia i.
Proof.
  intros Hd Hr (Hc & out & Hg & Hi & Hs) Hx.
  destruct (pull_in _ _ _ _ _ Hd Hr Hc Hg _ Hi) as [st ->]. apply int64_ia_of.
  intros c Hin. apply elem_of_cmds_in in Hin as [u Hu]. specialize (Hx _ Hu). simpl in Hx. by destruct c.
Qed.
