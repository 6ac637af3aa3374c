(** * Proofs about the aggregator under any clock *)
From Verif Require Import MAgg SAgg SClock PAgg PContent PContent2 PAgg2 PConserve.

(** ** what an interval holds after a list of commands *)
Lemma at_start_in d s cs : 0 < d → cmds_in d s (map (λ c, (s, OpCmd c)) cs) = cs.
Proof.
  intros Hd. induction cs as [|c cs IH]; [done|]. unfold cmds_in in *. cbn. rewrite bool_decide_true by lia. cbn. by rewrite IH.
Qed.
Lemma at_start_monotone s cs : clock_monotone (map (λ c, (s, OpCmd c)) cs ++ [(s, OpRead)]).
Proof.
  unfold clock_monotone. assert (Forall (λ x : Z, x = s) (map fst (map (λ c, (s, OpCmd c)) cs ++ [(s, OpRead)]))) as H.
  { rewrite map_app, map_map. apply Forall_app. split; [|by constructor]. apply Forall_forall. intros x Hx.
    by apply elem_of_list_fmap in Hx as (? & -> & _). }
  induction H as [|x l -> Hl IH]; constructor; [done|]. eapply Forall_impl; [exact Hl|]. intros ? ->. done.
Qed.
Lemma told_ia_of d s cs : 0 < d → slot d s = s → told cs (ia_of s cs).
Proof.
  intros Hd Hs. set (h := map (λ c, (s, OpCmd c)) cs).
  assert (Hc : clock_monotone (h ++ [(s, OpRead)])) by apply at_start_monotone.
  assert (Hg := get_metrics_eq d d h s Hd ltac:(lia) Hc).
  set (out := map _ (seen d d h s)) in Hg.
  assert (Hi : ia_of s cs ∈ out).
  { unfold out. apply elem_of_list_fmap. exists s. split; [unfold h; by rewrite at_start_in|].
    unfold seen, window. apply (last_Some_elem_of). rewrite lastn_last by (rewrite Z.quot_same by lia; lia).
    rewrite squash_last, map_app. cbn. rewrite last_snoc. by rewrite Hs. }
  assert (Ecs : cmds_in d (ia_start (ia_of s cs)) h = cs) by (rewrite ia_of_start; by apply at_start_in).
  split.
  - rewrite (thm_serial d d h s out Hd ltac:(lia) Hc Hg _ Hi). by rewrite Ecs.
  - intros e. rewrite (thm_events d d h s out Hd ltac:(lia) Hc Hg _ e Hi). by rewrite Ecs.
  - intros e. rewrite (thm_gauges d d h s out Hd ltac:(lia) Hc Hg _ e Hi). by rewrite Ecs.
  - intros e. assert (H := thm_errors d d h s out Hd ltac:(lia) Hc Hg _ e Hi). cbn zeta in H. rewrite Ecs in H.
    destruct (am_errs _ !! e); [|done]. destruct H as (? & ? & H). split; [done|]. split; [done|]. intros xs Hx. by apply H.
  - intros e He. assert (H := thm_timers d d h s out Hd ltac:(lia) Hc Hg _ e Hi). cbn zeta in H. rewrite Ecs in H. by apply H.
  - intros j l Hl. assert (H := thm_jobs d d h s out Hd ltac:(lia) Hc Hg _ j Hi). cbn zeta in H. rewrite Ecs in H. specialize (H Hl).
    assert (K := thm_complete d d h s out Hd ltac:(lia) Hc Hg _ j Hi). cbn zeta in K. rewrite Ecs in K.
    assert (length (completions_of (of_job j cs)) ≤ length l)%nat by apply omap_length_le. specialize (K ltac:(lia)).
    destruct (ia_jobs _ !! j); [|done]. destruct H as (?&?&?&?&?). destruct K as (?&?&?&?&?&?&?&_). done.
Qed.

(** ** the visits of a history *)
Definition vstep (d : Z) (vs : list (Z * list (Z * aop))) (x : Z * aop) : list (Z * list (Z * aop)) :=
  match last vs with
  | Some (s, g) => if decide (s = slot d x.1) then removelast vs ++ [(s, g ++ [x])] else vs ++ [(slot d x.1, [x])]
  | None => [(slot d x.1, [x])]
  end.
Definition vis (d : Z) (h : list (Z * aop)) : list (Z * list (Z * aop)) := fold_left (vstep d) h [].
Lemma vis_snoc d h x : vis d (h ++ [x]) = vstep d (vis d h) x.
Proof. unfold vis. by rewrite fold_left_app. Qed.
Lemma vstep_same d vs s g x : s = slot d x.1 → vstep d (vs ++ [(s, g)]) x = vs ++ [(s, g ++ [x])].
Proof. intros E. unfold vstep. rewrite last_snoc, decide_True by done. by rewrite removelast_last. Qed.
Lemma vstep_new d vs x : (∀ s g, last vs = Some (s, g) → s ≠ slot d x.1) → vstep d vs x = vs ++ [(slot d x.1, [x])].
Proof.
  intros H. unfold vstep. destruct (last vs) as [[s g]|] eqn:E; [rewrite decide_False by (by eapply H); done|].
  apply last_None in E as ->. done.
Qed.

Lemma vis_slot d h : ∀ s g, (s, g) ∈ vis d h → ∃ t, s = slot d t.
Proof.
  induction h as [|x h IH] using rev_ind; intros s g H; [by apply elem_of_nil in H|]. rewrite vis_snoc in H.
  destruct (last (vis d h)) as [[s0 g0]|] eqn:E.
  - apply last_Some in E as [vs E]. rewrite E in *. destruct (decide (s0 = slot d x.1)) as [Es|Hs].
    + rewrite vstep_same in H by done. apply elem_of_app in H as [H|H]; [apply (IH s g), elem_of_app; by left|].
      apply elem_of_list_singleton in H as [= -> ->]. eauto.
    + rewrite vstep_new in H by (intros ? ?; rewrite last_snoc; by intros [= <- <-]).
      apply elem_of_app in H as [H|H]; [by apply (IH s g)|]. apply elem_of_list_singleton in H as [= -> ->]. eauto.
  - rewrite vstep_new in H by (rewrite E; done). apply elem_of_app in H as [H|H]; [by apply (IH s g)|].
    apply elem_of_list_singleton in H as [= -> ->]. eauto.
Qed.

(** every division into visits is this one *)
Lemma visits_vis d h vs : visits d h vs → vs = vis d h.
Proof.
  revert h. induction vs as [|[s g] vs IH] using rev_ind; intros h [H1 H2 H3]; [cbn in H1; by subst h|].
  rewrite map_app, concat_app in H1. cbn in H1. rewrite app_nil_r in H1. subst h.
  rewrite (IH (concat (map snd vs))) at 1.
  2:{ split; [done| |].
      - intros s' g' H. apply H2. apply elem_of_app. by left.
      - intros vs1 s1 g1 s2 g2 vs2 E. apply (H3 vs1 s1 g1 s2 g2 (vs2 ++ [(s, g)])). rewrite E, <-app_assoc. done. }
  assert (E : vis d (concat (map snd vs)) = vs).
  { symmetry. apply IH. split; [done| |].
      - intros s' g' H. apply H2. apply elem_of_app. by left.
      - intros vs1 s1 g1 s2 g2 vs2 E. apply (H3 vs1 s1 g1 s2 g2 (vs2 ++ [(s, g)])). rewrite E, <-app_assoc. done. }
  rewrite E. destruct (H2 s g) as [Hg Hx]; [apply elem_of_app; right; left|].
  assert (Hl : ∀ s' g', last vs = Some (s', g') → s' ≠ s).
  { intros s' g' Hl. apply last_Some in Hl as [v' ->]. apply (H3 v' s' g' s g []). by rewrite <-app_assoc. }
  clear H2 H3 IH. induction g as [|x g IHg] using rev_ind; [done|]. rewrite app_assoc, vis_snoc.
  assert (slot d x.1 = s) as Ex by (apply Hx, elem_of_app; right; left).
  destruct (decide (g = [])) as [->|Hne].
  - rewrite app_nil_r, E. rewrite vstep_new; [by rewrite Ex|]. rewrite Ex. done.
  - rewrite <-IHg; [|done|intros y Hy; apply Hx, elem_of_app; by left]. by rewrite vstep_same.
Qed.
Lemma vis_visits d h : visits d h (vis d h).
Proof.
  induction h as [|x h IH] using rev_ind.
  { split; [done| |]; [intros s g H; by apply elem_of_nil in H|]. intros vs1 ? ? ? ? ? E. by destruct vs1. }
  rewrite vis_snoc. destruct IH as [I1 I2 I3]. destruct (last (vis d h)) as [[s g]|] eqn:El.
  - apply last_Some in El as [vs E]. rewrite E in *. destruct (decide (s = slot d x.1)) as [Es|Hs].
    + rewrite vstep_same by done. split.
      * rewrite <-I1. rewrite !map_app, !concat_app. cbn. by rewrite !app_nil_r, app_assoc.
      * intros s' g' H. apply elem_of_app in H as [H|H]; [apply I2, elem_of_app; by left|].
        apply elem_of_list_singleton in H as [= -> ->]. split; [by destruct g|]. intros y Hy.
        apply elem_of_app in Hy as [Hy|Hy]; [|apply elem_of_list_singleton in Hy as ->; done].
        destruct (I2 s g) as [_ H]; [apply elem_of_app; right; left|]. auto.
      * intros vs1 s1 g1 s2 g2 vs2 Ev. destruct vs2 as [|v2 vs2 _] using rev_ind.
        -- change (vs1 ++ [(s1, g1); (s2, g2)]) with (vs1 ++ [(s1, g1)] ++ [(s2, g2)]) in Ev. rewrite app_assoc in Ev.
           apply app_inj_tail in Ev as [-> [= -> <-]]. apply (I3 vs1 s1 g1 s2 g []). by rewrite <-app_assoc.
        -- change (vs1 ++ (s1, g1) :: (s2, g2) :: vs2 ++ [v2]) with (vs1 ++ ((s1, g1) :: (s2, g2) :: vs2) ++ [v2]) in Ev. rewrite app_assoc in Ev.
           apply app_inj_tail in Ev as [-> _]. apply (I3 vs1 s1 g1 s2 g2 (vs2 ++ [(s, g)])). by rewrite <-app_assoc.
    + rewrite vstep_new by (intros ? ?; rewrite last_snoc; by intros [= <- <-]). split.
      * rewrite <-I1. rewrite !map_app, !concat_app. cbn. by rewrite !app_nil_r.
      * intros s' g' H. apply elem_of_app in H as [H|H]; [by apply I2|]. apply elem_of_list_singleton in H as [= -> ->].
        split; [done|]. intros y Hy. by apply elem_of_list_singleton in Hy as ->.
      * intros vs1 s1 g1 s2 g2 vs2 Ev. destruct vs2 as [|v2 vs2 _] using rev_ind.
        -- change (vs1 ++ [(s1, g1); (s2, g2)]) with (vs1 ++ [(s1, g1)] ++ [(s2, g2)]) in Ev. rewrite app_assoc in Ev.
           apply app_inj_tail in Ev as [Ev [= <- _]]. apply app_inj_tail in Ev as [_ [= <- <-]]. done.
        -- change (vs1 ++ (s1, g1) :: (s2, g2) :: vs2 ++ [v2]) with (vs1 ++ ((s1, g1) :: (s2, g2) :: vs2) ++ [v2]) in Ev. rewrite app_assoc in Ev.
           apply app_inj_tail in Ev as [Ev _]. by apply (I3 vs1 s1 g1 s2 g2 vs2).
  - rewrite vstep_new by (rewrite El; done). apply last_None in El. rewrite El in *. cbn in I1. subst h. cbn. split; [done| |].
    + intros s g H. apply elem_of_list_singleton in H as [= -> ->]. split; [done|]. intros y Hy. by apply elem_of_list_singleton in Hy as ->.
    + intros vs1 ? ? ? ? ? E. destruct vs1 as [|? [|? ?]]; done.
Qed.

(** ** the state, for any clock *)
Section run.
  Context (d retain : Z) (Hd : 0 < d) (Hr : d ≤ retain).
  Notation mx := (Z.quot retain d).
  Definition ints_of (vs : list (Z * list (Z * aop))) : list ia := map (λ v, ia_of v.1 (hist_cmds v.2)) vs.

  Lemma hist_cmds_snoc g t o : hist_cmds (g ++ [(t, o)]) = hist_cmds g ++ match o with OpCmd c => [c] | _ => [] end.
  Proof using Type. unfold hist_cmds. rewrite omap_app. by destruct o. Qed.
  Lemma lastn_snoc_in {A} n (l : list A) x : (0 < n)%nat → lastn n (l ++ [x]) = lastn (n - 1) l ++ [x].
  Proof using Type.
    intros Hn. unfold lastn. rewrite app_length. cbn. replace (length l + 1 - n)%nat with (length l - (n - 1))%nat by lia.
    by rewrite drop_app_le by lia.
  Qed.

  Lemma open_visits vs t : ∃ vs0 g, (∀ o, vstep d vs (t, o) = vs0 ++ [(slot d t, g ++ [(t, o)])]) ∧
    get_interval (Aggr d retain mx (ints_of (lastn (Z.to_nat mx) vs))) t =
      Ok (Aggr d retain mx (ints_of (lastn (Z.to_nat mx) (vs0 ++ [(slot d t, g)])))).
  Proof using All.
    pose proof (max_pos d retain Hd Hr) as Hm. set (n := Z.to_nat mx) in *. assert (0 < n)%nat as Hn by lia.
    unfold get_interval. cbn [a_ints a_dur]. rewrite truncate_slot by done. unfold ints_of at 1.
    change (map ?f ?l) with (f <$> l) at 1. rewrite fmap_last, lastn_last by done.
    assert (Hcr : create_interval (Aggr d retain mx (ints_of (lastn n vs))) (slot d t) =
         Ok (Aggr d retain mx (ints_of (lastn n (vs ++ [(slot d t, [])]))))).
    { rewrite create_interval_char; [|done|cbn; unfold ints_of; rewrite map_length, lastn_length; lia].
      cbn [a_ints a_dur a_retain a_max]. do 2 f_equal. fold n.
      unfold ints_of. rewrite <-!lastn_map, map_app. cbn [map]. by apply lastn_lastn_snoc. }
    destruct (last vs) as [[s g]|] eqn:E; cbn [fmap option_fmap option_map fst snd].
    - rewrite ia_of_start. destruct (Z.eqb_spec s (slot d t)) as [->|Hne].
      + apply last_Some in E as [vs0 ->]. exists vs0, g. split; [|done]. intros o. by rewrite vstep_same.
      + exists vs, []. split; [|done]. intros o. rewrite vstep_new; [done|]. intros s' g' E'. rewrite E in E'. by injection E' as <- <-.
    - exists vs, []. split; [|done]. intros o. rewrite vstep_new; [done|]. by rewrite E.
  Qed.
  Lemma step_visits vs t o :
    agg_step (Aggr d retain mx (ints_of (lastn (Z.to_nat mx) vs))) t o =
      let l := ints_of (lastn (Z.to_nat mx) (vstep d vs (t, o))) in
      Ok (Aggr d retain mx l, match o with OpRead => Some l | _ => None end).
  Proof using All.
    pose proof (max_pos d retain Hd Hr) as Hm. destruct (open_visits vs t) as (vs0 & g & Hv & Hg). cbn zeta. rewrite Hv.
    assert (Hl : ∀ g', ints_of (lastn (Z.to_nat mx) (vs0 ++ [(slot d t, g')])) = ints_of (lastn (Z.to_nat mx - 1) vs0) ++ [ia_of (slot d t) (hist_cmds g')]).
    { intros g'. rewrite lastn_snoc_in by lia. unfold ints_of. by rewrite map_app. }
    rewrite !Hl, hist_cmds_snoc. rewrite !Hl in Hg. unfold agg_step, memory_safe_intervals. rewrite Hg. cbn [rbind].
    destruct o; cbn [rbind fst snd a_dur a_retain a_max a_ints]; rewrite ?app_nil_r; [|done|done].
    rewrite on_last_snoc. unfold ia_of. rewrite fold_left_app. done.
  Qed.
  Lemma run_visits h : ∀ vs, agg_run (Aggr d retain mx (ints_of (lastn (Z.to_nat mx) vs))) h =
    Ok (Aggr d retain mx (ints_of (lastn (Z.to_nat mx) (fold_left (vstep d) h vs)))).
  Proof using All.
    induction h as [|[t o] h IH]; intros vs; [done|]. cbn [agg_run]. rewrite step_visits. cbn [rbind fst]. apply IH.
  Qed.
  Lemma get_metrics_visits h t : get_metrics d retain h t = Ok (ints_of (lastn (Z.to_nat mx) (vis d (h ++ [(t, OpRead)])))).
  Proof using All.
    unfold get_metrics. rewrite new_aggregator_ok by lia. cbn [rbind].
    change (Aggr d retain mx []) with (Aggr d retain mx (ints_of (lastn (Z.to_nat mx) []))). rewrite run_visits. cbn [rbind].
    rewrite step_visits. cbn [rbind snd]. by rewrite vis_snoc.
  Qed.
End run.

(** ** the theorems of TClock.v *)
Lemma slot_idem d t : 0 < d → slot d (slot d t) = slot d t.
Proof. intros Hd. unfold slot. rewrite (Z.mul_comm d (t `div` d)), Z.div_mul by lia. lia. Qed.

Lemma thm_any_clock d retain h t vs : 0 < d → d ≤ retain → visits d (h ++ [(t, OpRead)]) vs →
  ∃ out, get_metrics d retain h t = Ok out ∧
    Forall2 (λ v i, ia_start i = v.1 ∧ told (hist_cmds v.2) i) (lastn (Z.to_nat (retain `div` d)) vs) out.
Proof.
  intros Hd Hr Hv. apply visits_vis in Hv as ->. rewrite get_metrics_visits by done. eexists. split; [done|].
  rewrite Z.quot_div_nonneg by lia. unfold ints_of. apply Forall2_fmap_r. apply Forall_Forall2_diag.
  apply Forall_forall. intros [s g] H. cbn. apply elem_of_lastn, vis_slot in H as [u ->].
  split; [apply ia_of_start|]. apply (told_ia_of d); [done|by apply slot_idem].
Qed.
Lemma thm_one_division d h : ∃ vs, visits d h vs ∧ ∀ vs', visits d h vs' → vs' = vs.
Proof. exists (vis d h). split; [apply vis_visits|apply visits_vis]. Qed.

Lemma thm_distinct d retain h t vs out : 0 < d → d ≤ retain → visits d (h ++ [(t, OpRead)]) vs →
  get_metrics d retain h t = Ok out →
  map ia_start out = map fst (lastn (Z.to_nat (retain `div` d)) vs).
Proof.
  intros Hd Hr Hv Hg. destruct (thm_any_clock d retain h t vs Hd Hr Hv) as (out' & Hg' & H). rewrite Hg in Hg'. injection Hg' as <-.
  clear -H. induction H as [|v i vs' out' [E _] _ IH]; [done|]. cbn. by rewrite E, IH.
Qed.

Lemma thm_clock_total d retain h t vs out e : 0 < d → d ≤ retain → visits d (h ++ [(t, OpRead)]) vs →
  get_metrics d retain h t = Ok out →
  event_total e out = i64 (length (events_of e (hist_cmds (concat (map snd (lastn (Z.to_nat (retain `div` d)) vs)))))).
Proof.
  intros Hd Hr Hv Hg. destruct (thm_any_clock d retain h t vs Hd Hr Hv) as (out' & Hg' & H). rewrite Hg in Hg'. injection Hg' as <-.
  clear Hv. revert H. generalize (lastn (Z.to_nat (retain `div` d)) vs). clear vs. intros vs H. unfold event_total.
  assert (map (λ i, default 0 (am_events (ia_maps i) !! e)) out = map w64 (map (λ v, Z.of_nat (length (events_of e (hist_cmds v.2)))) vs)) as ->.
  { clear -H. induction H as [|v i vs' out' [_ T] _ IH]; [done|]. cbn. rewrite IH. f_equal.
    rewrite (to_events _ _ T). apply counter_default. }
  rewrite w64_zsum. unfold i64. f_equal. clear. induction vs as [|v vs IH]; [done|].
  cbn [map zsum foldr concat]. change (foldr Z.add 0 ?y) with (zsum y).
  rewrite IH. unfold hist_cmds at 3. rewrite omap_app. unfold events_of. rewrite omap_app, app_length. unfold hist_cmds. lia.
Qed.
Lemma thm_all_counted d retain h t vs out e : 0 < d → d ≤ retain → visits d (h ++ [(t, OpRead)]) vs →
  get_metrics d retain h t = Ok out → Z.of_nat (length vs) ≤ retain `div` d →
  event_total e out = i64 (length (events_of e (hist_cmds h))).
Proof.
  intros Hd Hr Hv Hg Hl. rewrite (thm_clock_total d retain h t vs out e Hd Hr Hv Hg). unfold lastn.
  replace (length vs - Z.to_nat (retain `div` d))%nat with 0%nat by lia. rewrite drop_0, (vi_all _ _ _ Hv).
  rewrite hist_cmds_snoc. by rewrite app_nil_r.
Qed.
Lemma thm_distinct_iff d retain h t vs out : 0 < d → d ≤ retain → visits d (h ++ [(t, OpRead)]) vs →
  get_metrics d retain h t = Ok out →
  (NoDup (map ia_start out) ↔ NoDup (map fst (lastn (Z.to_nat (retain `div` d)) vs))).
Proof. intros Hd Hr Hv Hg. by rewrite (thm_distinct d retain h t vs out Hd Hr Hv Hg). Qed.

(** ** a clock that steps back *)
Definition back_h : list (Z * aop) :=
  [(10, OpCmd (CEvent "j" "a")); (70, OpCmd (CEvent "j" "a")); (75, OpTick); (50, OpCmd (CEvent "j" "a")); (51, OpCmd (CGauge "j" "g" (fofZ 3)))].
Definition back_vs : list (Z * list (Z * aop)) :=
  [(0, [(10, OpCmd (CEvent "j" "a"))]); (60, [(70, OpCmd (CEvent "j" "a")); (75, OpTick)]);
   (0, [(50, OpCmd (CEvent "j" "a")); (51, OpCmd (CGauge "j" "g" (fofZ 3))); (55, OpRead)])].
Lemma back_visits : visits 60 (back_h ++ [(55, OpRead)]) back_vs.
Proof. assert (back_vs = vis 60 (back_h ++ [(55, OpRead)])) as -> by (vm_compute; reflexivity). apply vis_visits. Qed.
