(** * Proofs about job counters and the per-job partition *)
From Verif Require Import MAgg SAgg PAgg PContent.

Lemma completions_of_snoc l c :
  completions_of (l ++ [c]) = completions_of l ++ match c with CComplete _ st n => [(st, n)] | _ => [] end.
Proof. unfold completions_of. rewrite omap_app. by destruct c. Qed.

Lemma job_of_timer l : j_timer (job_of l) = timer_of (map snd (completions_of l)).
Proof.
  induction l as [|c l IH] using rev_ind; [done|].
  rewrite job_of_snoc, completions_of_snoc.
  destruct c; simpl; rewrite ?app_nil_r; try done.
  rewrite map_app. simpl. rewrite timer_of_snoc, <- IH.
  unfold job_ingest. repeat case_match; done.
Qed.

Lemma completions_with_snoc st l c :
  completions_with st (l ++ [c]) = completions_with st l ++
    match c with CComplete _ st' n => if decide (st' = st) then [(st', n)] else [] | _ => [] end.
Proof.
  unfold completions_with. rewrite completions_of_snoc, filter_app. f_equal.
  by destruct c.
Qed.

Lemma i64_S n : w64 (i64 n + 1) = i64 (n + 1).
Proof. unfold i64. rewrite w64_add_l. f_equal. lia. Qed.

Lemma job_of_counters l :
  j_success (job_of l) = i64 (length (completions_with Success l)) ∧
  j_verror (job_of l) = i64 (length (completions_with ValidationError l)) ∧
  j_panic (job_of l) = i64 (length (completions_with Panic l)) ∧
  j_error (job_of l) = i64 (length (completions_with Error l)) ∧
  j_junk (job_of l) = i64 (length (completions_with Junk l)).
Proof.
  induction l as [|c l IH] using rev_ind; [done|].
  destruct IH as (H0 & H1 & H2 & H3 & H4).
  rewrite job_of_snoc, !completions_with_snoc, !app_length.
  destruct c as [| | | |j st n]; cbn [job_apply length app]; rewrite ?Nat.add_0_r;
    try (unfold job_on_maps; cbn; done).
  unfold job_ingest, Success, ValidationError, Panic, Error, Junk in *.
  destruct (Z.eqb_spec st 0) as [->|?]; [cbn; rewrite H0, i64_S, ?Nat.add_0_r; done|].
  destruct (Z.eqb_spec st 1) as [->|?]; [cbn; rewrite H1, i64_S, ?Nat.add_0_r; done|].
  destruct (Z.eqb_spec st 2) as [->|?]; [cbn; rewrite H2, i64_S, ?Nat.add_0_r; done|].
  destruct (Z.eqb_spec st 3) as [->|?]; [cbn; rewrite H3, i64_S, ?Nat.add_0_r; done|].
  destruct (Z.eqb_spec st 4) as [->|?]; [cbn; rewrite H4, i64_S, ?Nat.add_0_r; done|].
  rewrite !decide_False by done. cbn. rewrite ?Nat.add_0_r. done.
Qed.

Lemma status_counts_sum (l : list (Z * Z)) :
  (∀ p, p ∈ l → 0 ≤ p.1 ≤ 4) →
  (length (filter (λ p : Z * Z, p.1 = 0%Z) l) + length (filter (λ p : Z * Z, p.1 = 1%Z) l)
   + length (filter (λ p : Z * Z, p.1 = 2%Z) l) + length (filter (λ p : Z * Z, p.1 = 3%Z) l)
   + length (filter (λ p : Z * Z, p.1 = 4%Z) l) = length l)%nat.
Proof.
  induction l as [|[st n] l IH]; intros H; [done|].
  specialize (IH ltac:(intros p Hp; apply H; by right)).
  assert (0 ≤ st ≤ 4) as Hst by (apply (H (st, n)); by left).
  rewrite !filter_cons. cbn [fst].
  destruct (decide (st = 0)), (decide (st = 1)), (decide (st = 2)), (decide (st = 3)), (decide (st = 4));
    cbn [length] in *; lia.
Qed.

(** ** partition by job *)
Lemma partition_sum {F : list cmd → Z} {g : cmd → Z} :
  F [] = 0 → (∀ l c, F (l ++ [c]) = F l + g c) →
  ∀ (js : list string) l, NoDup js → (∀ c, c ∈ l → cmd_job c ∈ js) →
  zsum (map (λ j, F (of_job j l)) js) = F l.
Proof.
  intros H0 HS js l Hnd.
  assert (∀ (G : string → Z), (∀ j, j ∈ js → G j = 0) → zsum (map G js) = 0) as Hzero.
  { clear. induction js as [|j js IH]; intros G HG; simpl; [done|].
    rewrite (HG j) by (by left). rewrite IH; [done|]. intros j' Hj'. apply HG. by right. }
  induction l as [|c l IH] using rev_ind; intros Hin.
  - rewrite H0. apply Hzero. done.
  - rewrite HS, <- IH by (intros c' Hc'; apply Hin, elem_of_app; auto).
    assert (cmd_job c ∈ js) as Hc by (apply Hin, elem_of_app; right; by left).
    clear IH Hin. apply elem_of_list_split in Hc as (js1 & js2 & ->).
    rewrite !map_app, !zsum_app. cbn [map zsum foldr].
    assert (∀ js', (∀ j, j ∈ js' → j ≠ cmd_job c) →
      map (λ j, F (of_job j (l ++ [c]))) js' = map (λ j, F (of_job j l)) js') as Hsame.
    { intros js' Hne. apply map_ext_in. intros j Hj. rewrite of_job_snoc.
      rewrite decide_False; [done|]. apply not_eq_sym, Hne. by apply elem_of_list_In. }
    apply NoDup_app in Hnd as (Hnd1 & Hnd2 & Hnd3).
    apply NoDup_cons in Hnd3 as [Hnd3 _].
    rewrite !Hsame.
    + rewrite of_job_snoc, decide_True by done. rewrite HS. fold zsum. lia.
    + intros j Hj ->. done.
    + intros j Hj ->. apply (Hnd2 _ Hj). by left.
Qed.

Lemma over_jobs_partition {F : list cmd → Z} {g : cmd → Z} (f : jobagg → Z) s l :
  F [] = 0 → (∀ l c, F (l ++ [c]) = F l + g c) →
  (∀ l, f (job_of l) = w64 (F l)) →
  w64 (over_jobs f (ia_of s l)) = w64 (F l).
Proof.
  intros H0 HS Hf.
  rewrite <- (partition_sum H0 HS (map fst (map_to_list (ia_jobs (ia_of s l)))) l); cycle 1.
  { apply NoDup_fst_map_to_list. }
  { intros c Hc. destruct (ia_jobs (ia_of s l) !! cmd_job c) as [ja|] eqn:Hj.
    - apply elem_of_list_fmap. exists (cmd_job c, ja). split; [done|].
      by apply elem_of_map_to_list.
    - rewrite ia_of_jobs in Hj. destruct (of_job (cmd_job c) l) eqn:Ho; [|done].
      assert (c ∈ of_job (cmd_job c) l) as Hx by (apply elem_of_list_filter; done).
      rewrite Ho in Hx. by apply elem_of_nil in Hx. }
  unfold over_jobs. rewrite map_map.
  assert (∀ kv, kv ∈ map_to_list (ia_jobs (ia_of s l)) → f kv.2 = w64 (F (of_job kv.1 l))) as Heq.
  { intros [j ja] Hin. apply elem_of_map_to_list in Hin. rewrite ia_of_jobs in Hin. simpl.
    destruct (of_job j l) eqn:Ho; [done|]. rewrite <- Ho in *. inversion Hin. apply Hf. }
  revert Heq. generalize (map_to_list (ia_jobs (ia_of s l))) as kvs.
  induction kvs as [|kv kvs IH]; intros Heq; [done|].
  cbn [map zsum foldr]. fold (zsum (map (λ kv : string * jobagg, f kv.2) kvs)).
  fold (zsum (map (λ kv : string * jobagg, F (of_job kv.1 l)) kvs)).
  rewrite <- w64_add_r, IH by (intros x Hx; apply Heq; by right).
  rewrite w64_add_r. rewrite Heq by (by left). by rewrite w64_add_l.
Qed.

Lemma events_partition s l e :
  w64 (over_jobs (λ ja, mget (am_events (j_maps ja)) e 0) (ia_of s l))
  = mget (am_events (ia_maps (ia_of s l))) e 0.
Proof.
  assert (∀ l, mget (am_events (am_of l)) e 0 = w64 (Z.of_nat (length (events_of e l)))) as Hev.
  { intros l'. unfold mget. rewrite am_of_events. unfold counter_entry.
    destruct (decide _) as [->|]; done. }
  rewrite ia_of_maps, Hev.
  apply (over_jobs_partition (F := λ l, Z.of_nat (length (events_of e l)))
           (g := λ c, Z.of_nat (length (events_of e [c])))).
  - done.
  - intros l' c. unfold events_of. rewrite omap_app, app_length. lia.
  - intros l'. rewrite job_of_maps. apply Hev.
Qed.

Lemma errors_partition s l e :
  w64 (over_jobs (λ ja, ec_count (mget (am_errs (j_maps ja)) e errc0)) (ia_of s l))
  = ec_count (mget (am_errs (ia_maps (ia_of s l))) e errc0).
Proof.
  assert (∀ l, ec_count (mget (am_errs (am_of l)) e errc0) = w64 (Z.of_nat (length (errors_of e l)))) as Hev.
  { intros l'. unfold mget. rewrite am_of_errs.
    destruct (errors_of e l') eqn:He; [done|]. rewrite <- He. apply errc_of_count. }
  rewrite ia_of_maps, Hev.
  apply (over_jobs_partition (F := λ l, Z.of_nat (length (errors_of e l)))
           (g := λ c, Z.of_nat (length (errors_of e [c])))).
  - done.
  - intros l' c. unfold errors_of. rewrite omap_app, app_length. lia.
  - intros l'. rewrite job_of_maps. apply Hev.
Qed.

Lemma timers_partition s l e :
  w64 (over_jobs (λ ja, t_count (mget (am_timers (j_maps ja)) e timer0)) (ia_of s l))
  = t_count (mget (am_timers (ia_maps (ia_of s l))) e timer0) ∧
  w64 (over_jobs (λ ja, t_sum (mget (am_timers (j_maps ja)) e timer0)) (ia_of s l))
  = t_sum (mget (am_timers (ia_maps (ia_of s l))) e timer0).
Proof.
  assert (∀ l, t_count (mget (am_timers (am_of l)) e timer0) = w64 (Z.of_nat (length (timings_of e l)))) as Hev.
  { intros l'. unfold mget. rewrite am_of_timers.
    destruct (timings_of e l') eqn:He; [done|]. rewrite <- He. apply timer_of_count. }
  assert (∀ l, t_sum (mget (am_timers (am_of l)) e timer0) = w64 (zsum (timings_of e l))) as Hsu.
  { intros l'. unfold mget. rewrite am_of_timers.
    destruct (timings_of e l') eqn:He; [done|]. rewrite <- He. apply timer_of_sum. }
  rewrite ia_of_maps, Hev, Hsu. split.
  - apply (over_jobs_partition (F := λ l, Z.of_nat (length (timings_of e l)))
           (g := λ c, Z.of_nat (length (timings_of e [c])))).
    + done.
    + intros l' c. unfold timings_of. rewrite omap_app, app_length. lia.
    + intros l'. rewrite job_of_maps. apply Hev.
  - apply (over_jobs_partition (F := λ l, zsum (timings_of e l))
           (g := λ c, zsum (timings_of e [c]))).
    + done.
    + intros l' c. unfold timings_of. rewrite omap_app, zsum_app. done.
    + intros l'. rewrite job_of_maps. apply Hsu.
Qed.
