(** * Sums of squares of merged aggregations *)
From Coq Require Import Reals Lra.
From Flocq Require Import Core.
From Verif Require Import MMerge SMerge PContent PContent2 PAgg PAgg2 PMerge PMerge2.
From Verif Require Import SFloat2 PFloat PFloat2.

#[local] Arguments bpow : simpl never.

Definition ss_ok (b : Z) (k : nat) (f : f64) (l : list Z) : Prop :=
  (zsumsq l ≤ 2 ^ 53 → f = fofZ (zsumsq l)) ∧
  ∃ y, frepr f y ∧ (y = 0 ∨ 1 <= y)%R ∧ (y <= bpow radix2 b)%R ∧ within_roundings k y (IZR (zsumsq l)).

Lemma zsumsq_app l1 l2 : zsumsq (l1 ++ l2) = zsumsq l1 + zsumsq l2.
Proof. induction l1; simpl; lia. Qed.

Lemma fadd_small a b : 0 ≤ a → 0 ≤ b → a + b ≤ 2 ^ 53 → fadd (fofZ a) (fofZ b) = fofZ (a + b).
Proof.
  intros Ha Hb H. destruct (decide (a + b = 0)) as [He|He].
  - assert (a = 0) as -> by lia. assert (b = 0) as -> by lia. reflexivity.
  - assert (frepr (fadd (fofZ a) (fofZ b)) (IZR (a + b))) as Hr.
    { rewrite <- (rnd_int (a + b)) by lia. rewrite plus_IZR. apply frepr_add; [apply frepr_small; lia|apply frepr_small; lia|].
      rewrite <- plus_IZR. apply (rnd_fits _ 53); [done|]. apply IZR_abs_le; lia. }
    eapply frepr_inj; [exact Hr|apply frepr_small; lia|by apply IZR_neq].
Qed.

Lemma rnd_sat2 : rnd (bpow radix2 240 + bpow radix2 180) = bpow radix2 240.
Proof.
  assert (∀ k, 0 ≤ k < 1000 → frepr (fofZ (2 ^ k)) (bpow radix2 k)) as Hk.
  { intros k Hk. replace (bpow radix2 k) with (rnd (IZR (2 ^ k))).
    - apply frepr_ofZ. apply (rnd_fits _ k); [lia|]. apply IZR_abs_le; [lia|]. rewrite Z.abs_eq; [done|]. by apply Z.pow_nonneg.
    - change (2 ^ k) with (radix_val radix2 ^ k). rewrite IZR_Zpower by lia. apply rnd_bpow. lia. }
  assert (frepr (fadd (fofZ (2 ^ 240)) (fofZ (2 ^ 180))) (rnd (bpow radix2 240 + bpow radix2 180))) as H.
  { apply frepr_add; [by apply Hk|by apply Hk|]. apply (rnd_fits _ 241); [done|].
    rewrite Rabs_pos_eq; [|apply Rplus_le_le_0_compat; apply bpow_ge_0].
    change 241 with (240 + 1). rewrite bpow_plus.
    assert (bpow radix2 180 <= bpow radix2 240)%R by (by apply bpow_le). change (bpow radix2 1) with 2%R. lra. }
  assert (fadd (fofZ (2 ^ 240)) (fofZ (2 ^ 180)) = fofZ (2 ^ 240)) as He by (vm_compute; reflexivity).
  rewrite He in H. eapply frepr_fun; [exact H|]. by apply Hk.
Qed.

Lemma ss_ok_merge k1 k2 f1 f2 l1 l2 : ss_ok 240 k1 f1 l1 → ss_ok 180 k2 f2 l2 →
  ss_ok 240 (S (Nat.max k1 k2)) (fadd f1 f2) (l1 ++ l2).
Proof.
  intros [E1 (x & Hx & Hx1 & Hxb & Hxw)] [E2 (y & Hy & Hy1 & Hyb & Hyw)]. rewrite <- zsumsq_app || idtac.
  pose proof (zsumsq_nonneg l1). pose proof (zsumsq_nonneg l2).
  assert (0 <= x)%R as Hx0 by (destruct Hx1; lra). assert (0 <= y)%R as Hy0 by (destruct Hy1; lra).
  assert (0 <= rnd (x + y))%R as Hr0 by (apply rnd_pos; lra).
  assert (rnd (x + y) <= bpow radix2 240)%R as Hb.
  { rewrite <- rnd_sat2. apply rnd_le. lra. }
  split.
  - rewrite zsumsq_app. intros Hs. rewrite E1, E2 by lia. by apply fadd_small.
  - exists (rnd (x + y)). split; [|split; [|split]].
    + apply frepr_add; [done|done|]. rewrite Rabs_pos_eq by done. eapply Rle_lt_trans; [exact Hb|]. by apply bpow_lt.
    + destruct Hx1 as [Hx1|Hx1].
      * rewrite Hx1, Rplus_0_l. rewrite (frepr_rnd _ _ Hy). done.
      * right. apply rnd_ge_1. lra.
    + done.
    + rewrite zsumsq_app, plus_IZR. apply within_rnd.
      * destruct Hx1 as [Hx1|Hx1]; [destruct Hy1 as [Hy1|Hy1]; [left; lra|]|]; right; pose proof bpow_small; rewrite Rabs_pos_eq by lra; lra.
      * apply within_add; [by apply IZR_le|by apply IZR_le| |].
        -- apply (within_mono k1); [lia|done].
        -- apply (within_mono k2); [lia|done].
Qed.
Lemma ss_ok_sum l : Forall in_int64 l → ss_ok 180 (3 + length l) (sum_squares l) l.
Proof. intros H. split; [|by apply ss_all]. intros Hs. by apply thm_ss_exact. Qed.
Lemma ss_ok_mono b b' k k' f l : b ≤ b' → (k ≤ k')%nat → ss_ok b k f l → ss_ok b' k' f l.
Proof.
  intros Hb Hk [E (x & Hx & Hx1 & Hxb & Hxw)]. split; [done|]. exists x. split; [done|]. split; [done|]. split.
  - eapply Rle_trans; [exact Hxb|]. by apply bpow_le.
  - by apply (within_mono k).
Qed.
Lemma ss_ok_good b k f l : ss_ok b k f l → good_ss k f l.
Proof.
  intros [E (x & Hx & Hx1 & Hxb & Hxw)]. assert (0 <= x)%R as Hx0 by (destruct Hx1; lra).
  split; [|split; [|split; [|split]]].
  - intros Hs. split; [by apply E|]. rewrite E by done. apply frepr_fval, frepr_small. pose proof (zsumsq_nonneg l). lia.
  - destruct Hx as (b' & <- & _). apply BinarySingleNaN.valid_binary_B2SF.
  - by eapply frepr_finite.
  - rewrite (frepr_ltb _ _ _ _ Hx frepr_f0). by apply Rlt_bool_false.
  - by rewrite (frepr_fval _ _ Hx).
Qed.

(** ** Aggregations: [n] is the number of merges so far *)
Definition tsl (b : Z) (n : nat) (f : f64) (l : list Z) : Prop := ss_ok b (3 + length l + n) f l.
Definition msl (b : Z) (n : nat) (m : amaps) (L : list cmd) : Prop :=
  ∀ e, match am_timers m !! e with
       | None => timings_of e L = []
       | Some t => tsl b n (t_ss t) (timings_of e L)
       end.
Definition isl (b : Z) (n : nat) (a : ia) (L : list cmd) : Prop :=
  msl b n (ia_maps a) L ∧
  ∀ j, match ia_jobs a !! j with
       | None => of_job j L = []
       | Some ja => msl b n (j_maps ja) (of_job j L) ∧ tsl b n (t_ss (j_timer ja)) (map snd (completions_of (of_job j L)))
       end.

Lemma tsl_merge n f1 f2 l1 l2 : tsl 240 n f1 l1 → tsl 180 0 f2 l2 → tsl 240 (S n) (fadd f1 f2) (l1 ++ l2).
Proof.
  intros H1 H2. eapply ss_ok_mono; [| |by eapply ss_ok_merge]; [done|]. rewrite app_length. lia.
Qed.
Lemma tsl_mono n f l : tsl 240 n f l → tsl 240 (S n) f l.
Proof. apply ss_ok_mono; [done|lia]. Qed.
Lemma tsl_mono0 n f l : tsl 180 0 f l → tsl 240 (S n) f l.
Proof. apply ss_ok_mono; [done|lia]. Qed.
Lemma msl_merge n m1 m2 L1 L2 : msl 240 n m1 L1 → msl 180 0 m2 L2 → msl 240 (S n) (amaps_merge m1 m2) (L1 ++ L2).
Proof.
  intros H1 H2 e. cbn [amaps_merge am_timers]. rewrite (merge_timers_char _ _ (am_timers m2)) by apply enumerates_self.
  rewrite lookup_union_with. specialize (H1 e). specialize (H2 e). rewrite timings_of_app.
  destruct (am_timers m1 !! e) as [c1|], (am_timers m2 !! e) as [c2|]; cbn [union_with option_union_with].
  - by apply tsl_merge.
  - rewrite H2, app_nil_r. by apply tsl_mono.
  - rewrite H1. by apply tsl_mono0.
  - by rewrite H1, H2.
Qed.
Lemma msl_mono n m L : msl 240 n m L → msl 240 (S n) m L.
Proof. intros H e. specialize (H e). destruct (am_timers m !! e); [by apply tsl_mono|done]. Qed.
Lemma msl_mono0 n m L : msl 180 0 m L → msl 240 (S n) m L.
Proof. intros H e. specialize (H e). destruct (am_timers m !! e); [by apply tsl_mono0|done]. Qed.
Lemma isl_merge n a b L1 L2 : isl 240 n a L1 → isl 180 0 b L2 → isl 240 (S n) (ia_merge a b) (L1 ++ L2).
Proof.
  intros [M1 J1] [M2 J2]. split; [by apply msl_merge|].
  intros j. rewrite ia_merge_jobs, of_job_app. specialize (J1 j). specialize (J2 j).
  destruct (ia_jobs a !! j) as [ja|], (ia_jobs b !! j) as [jb|].
  - destruct J1 as [A1 B1], J2 as [A2 B2]. split; [by apply msl_merge|]. cbn [job_merge j_timer timer_merge t_ss].
    rewrite completions_of_app, map_app. by apply tsl_merge.
  - rewrite J2, app_nil_r. destruct J1. split; [by apply msl_mono|by apply tsl_mono].
  - rewrite J1. destruct J2. split; [by apply msl_mono0|by apply tsl_mono0].
  - by rewrite J1, J2.
Qed.

Definition nanos_int64 (c : cmd) : Prop :=
  match c with CTiming _ _ n | CComplete _ _ n => in_int64 n | _ => True end.
Lemma timings_int64 e L : (∀ c, c ∈ L → nanos_int64 c) → Forall in_int64 (timings_of e L).
Proof.
  intros H. apply Forall_forall. intros n Hn. unfold timings_of in Hn. apply elem_of_list_omap in Hn as (c & Hc & Hx).
  specialize (H c Hc). destruct c as [| |? e' n'| |]; try done. case_bool_decide; [|done]. by injection Hx as <-.
Qed.
Lemma completions_int64 L : (∀ c, c ∈ L → nanos_int64 c) → Forall in_int64 (map snd (completions_of L)).
Proof.
  intros H. apply Forall_forall. intros n Hn. apply elem_of_list_fmap in Hn as ([st n'] & -> & Hn).
  unfold completions_of in Hn. apply elem_of_list_omap in Hn as (c & Hc & Hx).
  specialize (H c Hc). destruct c as [| | | |? st' n'']; try done. by injection Hx as <- <-.
Qed.
Lemma msl_of L : (∀ c, c ∈ L → nanos_int64 c) → msl 180 0 (am_of L) L.
Proof.
  intros H e. rewrite am_of_timers. destruct (timings_of e L) eqn:He; [done|]. rewrite <- He. rewrite timer_of_ss.
  unfold tsl. rewrite Nat.add_0_r. apply ss_ok_sum. by apply timings_int64.
Qed.
Lemma isl_of s L : (∀ c, c ∈ L → nanos_int64 c) → isl 180 0 (ia_of s L) L.
Proof.
  intros H. split; [rewrite ia_of_maps; by apply msl_of|]. intros j. rewrite ia_of_jobs.
  destruct (of_job j L) eqn:Ho; [done|]. rewrite <- Ho.
  assert (∀ c, c ∈ of_job j L → nanos_int64 c) as Hj.
  { intros c1 Hc. apply H. unfold of_job in Hc. by apply elem_of_list_filter in Hc as [_ ?]. }
  split; [rewrite job_of_maps; by apply msl_of|]. rewrite job_of_timer, timer_of_ss. unfold tsl. rewrite Nat.add_0_r.
  apply ss_ok_sum. by apply completions_int64.
Qed.
Lemma isl_merge_all s (is : list ia) (ls : list (list cmd)) :
  Forall2 (isl 180 0) is ls → isl 240 (length ls) (merge_all s is) (concat ls).
Proof.
  unfold merge_all. intros HF.
  assert (∀ n a L, isl 240 n a L → isl 240 (n + length ls) (fold_left ia_merge is a) (L ++ concat ls)) as H.
  { induction HF as [|i l is ls Hi HF IH]; intros n a L Ha; simpl; [by rewrite app_nil_r, Nat.add_0_r|].
    rewrite app_assoc. replace (n + S (length ls))%nat with (S n + length ls)%nat by lia. apply IH. by apply isl_merge. }
  apply (H 0%nat (new_ia s) []). split; intros e; cbn; done.
Qed.

Lemma host_nanos d s h : host_int64 h → ∀ c, c ∈ cmds_in d s h → nanos_int64 c.
Proof.
  intros H c Hc. apply elem_of_cmds_in in Hc as [t Ht]. specialize (H _ Ht). simpl in H. by destruct c.
Qed.

Lemma thm_merged_ss d retain s (hosts : list (list (Z * aop) * Z)) (is : list ia) :
  0 < d → d ≤ retain →
  Forall2 (λ i ht, reports d retain ht.1 ht.2 s i) is hosts →
  (∀ ht, ht ∈ hosts → host_int64 ht.1) →
  let all := concat (map (λ ht, cmds_in d s ht.1) hosts) in
  (∀ e t, am_timers (ia_maps (merge_all s is)) !! e = Some t →
     good_ss (3 + length (timings_of e all) + length hosts) (t_ss t) (timings_of e all)) ∧
  (∀ j ja, ia_jobs (merge_all s is) !! j = Some ja →
     (∀ e t, am_timers (j_maps ja) !! e = Some t →
        let l := timings_of e (of_job j all) in good_ss (3 + length l + length hosts) (t_ss t) l) ∧
     (let l := map snd (completions_of (of_job j all)) in good_ss (3 + length l + length hosts) (t_ss (j_timer ja)) l)).
Proof.
  intros Hd Hr HF Hi all.
  assert (isl 240 (length hosts) (merge_all s is) all) as [M J].
  { rewrite <- (map_length (λ ht, cmds_in d s ht.1) hosts). apply isl_merge_all. apply Forall2_map_r. clear all.
    induction HF as [|i [h t] is hs Hrep HF IH]; [constructor|]. constructor.
    - destruct Hrep as (Hc & out & Hg & Hin & <-). destruct (pull_in _ _ _ _ _ Hd Hr Hc Hg _ Hin) as [st ->].
      rewrite ia_of_start in *. apply isl_of. apply host_nanos. apply (Hi (h, t)). by left.
    - apply IH. intros ht Hht. apply Hi. by right. }
  split.
  - intros e t Ht. specialize (M e). rewrite Ht in M. by eapply ss_ok_good.
  - intros j ja Hj; try fold cmds in Hj; specialize (J j); rewrite Hj in J; destruct J as [JM JT]; split.
    + intros e t Ht l. specialize (JM e). rewrite Ht in JM. by eapply ss_ok_good.
    + by eapply ss_ok_good.
Qed.

(** one sink *)
Lemma thm_sink_ss d retain h t out i : 0 < d → d ≤ retain → clock_monotone (h ++ [(t, OpRead)]) →
  get_metrics d retain h t = Ok out → i ∈ out → host_int64 h →
  let cmds := cmds_in d (ia_start i) h in
  (∀ e tm, am_timers (ia_maps i) !! e = Some tm →
     let l := timings_of e cmds in good_ss (3 + length l) (t_ss tm) l) ∧
  (∀ j ja, ia_jobs i !! j = Some ja →
     (∀ e tm, am_timers (j_maps ja) !! e = Some tm →
        let l := timings_of e (of_job j cmds) in good_ss (3 + length l) (t_ss tm) l) ∧
     (let l := map snd (completions_of (of_job j cmds)) in good_ss (3 + length l) (t_ss (j_timer ja)) l)).
Proof.
  intros Hd Hr Hc Hg Hin Hi. destruct (pull_in _ _ _ _ _ Hd Hr Hc Hg _ Hin) as [st ->]. rewrite ia_of_start. intros cmds.
  destruct (isl_of st cmds) as [M J]; [by apply host_nanos|].
  assert (∀ f l, tsl 180 0 f l → good_ss (3 + length l) f l) as Ht.
  { intros f l Hl. unfold tsl in Hl. rewrite Nat.add_0_r in Hl. by eapply ss_ok_good. }
  split.
  - intros e tm Htm. fold cmds in Htm. specialize (M e). rewrite Htm in M. by apply Ht.
  - intros j ja Hj; try fold cmds in Hj; specialize (J j); rewrite Hj in J; destruct J as [JM JT]; split.
    + intros e tm Htm. specialize (JM e). rewrite Htm in JM. by apply Ht.
    + by apply Ht.
Qed.
