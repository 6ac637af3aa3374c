(** * The extremes of a job's timer after any merge *)
From Verif Require Import MMerge SMerge2 PAgg PContent PContent2 PAgg2 PMerge PMerge2 PMerge3.

Definition xlooks (j : string) (i : ia) (l : list Z) : Prop :=
  match ia_jobs i !! j with
  | None => l = []
  | Some ja => is_min (t_min (j_timer ja)) l ∧ is_max (t_max (j_timer ja)) l
  end.
Lemma xlooks_of j s L : Z.of_nat (length (completions_of (of_job j L))) ≤ 2 ^ 64 → xlooks j (ia_of s L) (timed_as j L).
Proof.
  intros Hl. unfold xlooks, timed_as. rewrite ia_of_jobs. destruct (of_job j L) as [|c l] eqn:E; [done|].
  rewrite job_of_timer. rewrite <-(map_length snd) in Hl. destruct (map snd (completions_of (c :: l))) as [|x ds].
  - cbn. split; (split; [left|]); intros y Hy; apply elem_of_list_singleton in Hy as ->; lia.
  - by apply timer_of_minmax.
Qed.
Lemma xlooks_merge j a b l1 l2 : xlooks j a l1 → xlooks j b l2 → xlooks j (ia_merge a b) (l1 ++ l2).
Proof.
  unfold xlooks. rewrite ia_merge_jobs. destruct (ia_jobs a !! j), (ia_jobs b !! j).
  - intros [A1 A2] [B1 B2]. cbn. split; [by apply is_min_app|by apply is_max_app].
  - intros ? ->. by rewrite app_nil_r.
  - by intros -> ?.
  - by intros -> ->.
Qed.
Lemma thm_job_extremes d retain s (hosts : list (list (Z * aop) * Z)) (is : list ia) j ja :
  0 < d → d ≤ retain → Forall2 (λ i ht, reports d retain ht.1 ht.2 s i) is hosts →
  (∀ ht, ht ∈ hosts → Z.of_nat (length (completions_of (of_job j (cmds_in d s ht.1)))) ≤ 2 ^ 64) →
  ia_jobs (merge_all s is) !! j = Some ja →
  is_min (t_min (j_timer ja)) (all_timed_as d s j hosts) ∧ is_max (t_max (j_timer ja)) (all_timed_as d s j hosts).
Proof.
  intros Hd Hr HF Hl Hj. assert (xlooks j (merge_all s is) (all_timed_as d s j hosts)) as H.
  { unfold merge_all, all_timed_as. clear Hj ja.
    assert (H0 : xlooks j (new_ia s) []) by done. revert H0. generalize (new_ia s) as a.
    change (concat (map (λ ht, timed_as j (cmds_in d s ht.1)) hosts)) with ([] ++ concat (map (λ ht, timed_as j (cmds_in d s ht.1)) hosts)).
    generalize ([] : list Z) as L. induction HF as [|i ht is hs Hi HF IH]; intros L a Ha; cbn; [by rewrite app_nil_r|].
    rewrite app_assoc. apply IH; [intros ht' H; apply Hl; by right|]. apply xlooks_merge; [done|].
    destruct Hi as (Hc & out & Hg & Hi & Hs). destruct (pull_in _ _ _ _ _ Hd Hr Hc Hg _ Hi) as [st ->]. rewrite ia_of_start in *. subst s.
    apply xlooks_of, Hl. left. }
  unfold xlooks in H. by rewrite Hj in H.
Qed.

Lemma timed_as_in j L x : x ∈ timed_as j L ↔ x ∈ map snd (completions_of (of_job j L)) ∨ (x = 0 ∧ of_job j L ≠ [] ∧ completions_of (of_job j L) = []).
Proof.
  unfold timed_as. destruct (of_job j L) as [|c l]; [cbn; split; [intros H; by apply elem_of_nil in H|intros [H|(_&?&_)]; [by apply elem_of_nil in H|done]]|].
  destruct (completions_of (c :: l)) as [|y ys].
  - cbn. rewrite elem_of_list_singleton. split; [intros ->; by right|intros [H|(-> & _)]; [by apply elem_of_nil in H|done]].
  - cbn [map]. split; [by left|intros [H|(_&_&?)]; done].
Qed.
Lemma all_timed_in d s j hosts x : x ∈ all_timed_as d s j hosts ↔
  x ∈ map snd (completions_of (of_job j (concat (map (λ ht, cmds_in d s ht.1) hosts)))) ∨
  (x = 0 ∧ ∃ ht, ht ∈ hosts ∧ of_job j (cmds_in d s ht.1) ≠ [] ∧ completions_of (of_job j (cmds_in d s ht.1)) = []).
Proof.
  unfold all_timed_as. induction hosts as [|ht hosts IH].
  - cbn. split; [intros H; by apply elem_of_nil in H|]. intros [H|(_&?&H&_)]; by apply elem_of_nil in H.
  - cbn [map concat]. rewrite of_job_app, completions_of_app, map_app, !elem_of_app, IH, timed_as_in. split.
    + intros [[H|(->&H1&H2)]|[H|(->&ht'&H&?)]]; [by left; left| |by left; right|].
      * right. split; [done|]. exists ht. split; [left|done].
      * right. split; [done|]. exists ht'. split; [by right|done].
    + intros [[H|H]|(->&ht'&[-> | H]%elem_of_cons&?&?)]; [by left; left|by right; left| |].
      * left. right. done.
      * right. right. split; [done|]. by exists ht'.
Qed.

(** with durations above 0 the maximum is always right, and the minimum exactly
    when every host that mentions the job completed it *)
Lemma thm_extremes_exactly d retain s (hosts : list (list (Z * aop) * Z)) (is : list ia) j ja :
  0 < d → d ≤ retain → Forall2 (λ i ht, reports d retain ht.1 ht.2 s i) is hosts →
  (∀ ht, ht ∈ hosts → Z.of_nat (length (completions_of (of_job j (cmds_in d s ht.1)))) ≤ 2 ^ 64) →
  ia_jobs (merge_all s is) !! j = Some ja →
  let ds := map snd (completions_of (of_job j (concat (map (λ ht, cmds_in d s ht.1) hosts)))) in
  ds ≠ [] → (∀ x, x ∈ ds → 0 < x) →
  is_max (t_max (j_timer ja)) ds ∧
  (is_min (t_min (j_timer ja)) ds ↔
     ∀ ht, ht ∈ hosts → of_job j (cmds_in d s ht.1) = [] ∨ completions_of (of_job j (cmds_in d s ht.1)) ≠ []).
Proof.
  intros Hd Hr HF Hl Hj ds Hne Hp. destruct (thm_job_extremes d retain s hosts is j ja Hd Hr HF Hl Hj) as [[A1 A2] [B1 B2]].
  setoid_rewrite all_timed_in in A2. setoid_rewrite all_timed_in in B2. rewrite all_timed_in in A1. rewrite all_timed_in in B1.
  fold ds in A1, A2, B1, B2.
  assert (∃ y, y ∈ ds) as [y Hy] by (destruct ds as [|y ?]; [done|exists y; left]).
  split; [split; [|by auto]|].
  { destruct B1 as [?|[E _]]; [done|]. specialize (B2 y (or_introl Hy)). specialize (Hp y Hy). lia. }
  split.
  - intros [M _] ht Hht. destruct (of_job j (cmds_in d s ht.1)) as [|c l] eqn:E1; [by left|]. right. intros E2.
    assert (t_min (j_timer ja) ≤ 0). { apply A2. right. split; [done|]. exists ht. rewrite E1. done. }
    specialize (Hp _ M). lia.
  - intros H. split; [|by auto]. destruct A1 as [?|(_ & ht & Hht & N1 & N2)]; [done|]. destruct (H ht Hht); done.
Qed.
