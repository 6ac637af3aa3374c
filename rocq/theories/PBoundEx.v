(** * Concrete executions: how much healthd holds (C130) *)
From Verif Require Import PHealthd PHealthdEx PBound SBound.

(** ** A host whose clock is ahead: minute after minute it reports an interval
    that starts [a] minutes later *)
Definition xlate (a : Z) (i : nat) : list hop :=
  [HResp (xr "a" "i" [xd ((a + Z.of_nat i) * minute) 1 1 0]) 1000 1001; HPurge (λ _, Z.of_nat i * minute)].
Definition xlates (a : Z) (n : nat) : list hop := seq 0 n ≫= xlate a.
Definition xkey (a : Z) (i : nat) : hkey := ((a + Z.of_nat i) * minute, 0%N, "i", "a").

Lemma xlates_S a n : xlates a (S n) = xlates a n ++ xlate a n.
Proof. unfold xlates. rewrite seq_S, bind_app. cbn. done. Qed.
Lemma xlates_resp a n r t1 t2 : HResp r t1 t2 ∈ xlates a n → ∃ i, (i < n)%nat ∧ r = xr "a" "i" [xd ((a + Z.of_nat i) * minute) 1 1 0].
Proof.
  unfold xlates. intros H. apply elem_of_list_bind in H as (i & H & Hi).
  apply elem_of_seq in Hi. exists i. split; [lia|]. unfold xlate in H.
  apply elem_of_cons in H as [H|H]; [by injection H|]. apply elem_of_list_singleton in H. done.
Qed.
Lemma xlates_reported a n key x : reported (xlates a n) key x → ∃ i, (i < n)%nat ∧ key = xkey a i.
Proof.
  intros (r & t1 & t2 & H & Hu & Hx). apply xlates_resp in H as (i & Hi & ->). exists i. split; [done|].
  unfold reports_at in Hx. apply elem_of_list_omap in Hx as (y & Hy & Hx). cbn in Hy. apply elem_of_list_singleton in Hy as ->.
  cbn in Hx. case_decide as Hk; [|done]. by subst key.
Qed.

Lemma consume_fresh s t : (hd_dur s = 0 ∨ hd_dur s = minute ∧ 0 ≤ hd_max s) → hd_pub s = [] → hd_host s !! (t, 0%N, "i", "a") = None →
  ∃ s', consume s (xr "a" "i" [xd t 1 1 0]) 1000 1001 = Ok s' ∧ hd_dur s' = minute ∧ 0 ≤ hd_max s' ∧ hd_pub s' = [] ∧
    hd_host s' = <[(t, 0%N, "i", "a") := DAgg 0 (xi t 1 1) false]> (hd_host s).
Proof.
  intros Hd Hp Hn. unfold consume. cbn -[minute].
  change ((d_time (DAgg 0 (xi t 1 1) false))) with (t, 0%N). cbn -[minute]. rewrite Hn.
  destruct Hd as [-> | [-> Hm]]; cbn -[minute].
  - change (minute =? 0) with false. cbn -[minute]. eexists. split; [reflexivity|]. cbn. done.
  - change (minute =? 0) with false. change (minute =? minute) with true. cbn -[minute]. eexists. split; [reflexivity|]. cbn. done.
Qed.
Lemma purge_none s t : 0 ≤ hd_max s → hd_pub s = [] → hd_dur s = minute →
  (∀ k x, hd_host s !! k = Some x → ¬ minute * 5 < since t (key_time k).1) →
  ∃ s', purge s (λ _, t) = Ok s' ∧ hd_dur s' = minute ∧ 0 ≤ hd_max s' ∧ hd_pub s' = [] ∧ hd_host s' = hd_host s.
Proof.
  intros Hm Hp Hd Hk. unfold purge. rewrite Hp, Hd. unfold truncate_pub. cbn -[filter minute w64 since].
  destruct (_ <? _) eqn:E; [apply Z.ltb_lt in E; lia|]. cbn -[filter minute w64 since]. eexists. split; [reflexivity|]. cbn -[filter minute w64 since].
  split_and!; [done..|]. change (w64 (minute * 5)) with (minute * 5). apply map_filter_id. intros k x Hx. by eapply Hk.
Qed.

Lemma since_neg now t : now ≤ t → since now t ≤ 0.
Proof. intros H. unfold since. destruct (_ <? _) eqn:E1; [lia|]. destruct (2 ^ 63 - 1 <? _) eqn:E2; [apply Z.ltb_lt in E2; lia|]. lia. Qed.
Lemma xlates_run a n : Z.of_nat n ≤ a → ∃ s, hrun (hd_init ["a"]) (xlates a n) (Ok s) ∧ (hd_dur s = 0 ∨ hd_dur s = minute ∧ 0 ≤ hd_max s) ∧ hd_pub s = [] ∧
  (∀ k x, hd_host s !! k = Some x → ∃ i, (i < n)%nat ∧ k = xkey a i) ∧ size (hd_host s) = n.
Proof.
  induction n as [|n IH]; intros Ha.
  - exists (hd_init ["a"]). split; [constructor|]. split; [by left|]. split; [done|]. split; [|done]. intros k x Hx. done.
  - destruct IH as (s & H & Hd & Hp & Hk & Hs); [lia|].
    assert (Hn : hd_host s !! xkey a n = None).
    { destruct (hd_host s !! xkey a n) eqn:E; [|done]. apply Hk in E as (i & Hi & E). unfold xkey, minute in E. injection E as E. lia. }
    destruct (consume_fresh s ((a + Z.of_nat n) * minute) Hd Hp Hn) as (s1 & H1 & Hd1 & Hm1 & Hp1 & Hh1).
    assert (Hk1 : ∀ k x, hd_host s1 !! k = Some x → ∃ i, (i < S n)%nat ∧ k = xkey a i).
    { intros k x Hx. rewrite Hh1 in Hx. apply lookup_insert_Some in Hx as [[<- _]|[_ Hx]]; [exists n; split; [lia|done]|].
      apply Hk in Hx as (i & Hi & ->). exists i. split; [lia|done]. }
    destruct (purge_none s1 (Z.of_nat n * minute) Hm1 Hp1 Hd1) as (s2 & H2 & Hd2 & Hm2 & Hp2 & Hh2).
    { intros k x Hx. apply Hk1 in Hx as (i & Hi & ->).
      assert (since (Z.of_nat n * minute) ((a + Z.of_nat i) * minute) ≤ 0) by (apply since_neg; unfold minute; lia).
      unfold xkey, key_time. cbn [fst]. unfold minute at 1. lia. }
    exists s2. rewrite xlates_S. split.
    { apply hrun_app. exists s. split; [done|]. econstructor; [done|exact H1|]. econstructor; [done|exact H2|]. constructor. }
    split; [auto|]. split; [done|]. rewrite Hh2. split; [exact Hk1|]. rewrite Hh1, map_size_insert_None by exact Hn. by rewrite Hs.
Qed.

Lemma t_ahead (n : nat) : ∃ hosts tr now s, hrun (hd_init hosts) (tr ++ [HPurge now]) (Ok s) ∧ well_formed tr ∧ one_zone utc tr ∧
  on_grid 60000000000 tr ∧ conf_dur tr = Some 60000000000 ∧ has_sources 0 tr [("i", "a")] ∧ (n ≤ size (hd_host s))%nat.
Proof.
  destruct (xlates_run (Z.of_nat (S n)) (S n)) as (s & H & _ & _ & _ & Hs); [lia|].
  assert (Hx : ∃ tr0, xlates (Z.of_nat (S n)) (S n) = tr0 ++ [HPurge (λ _, Z.of_nat n * minute)] ∧
    (∀ op, op ∈ tr0 → op ∈ xlates (Z.of_nat (S n)) (S n)) ∧ conf_dur tr0 = Some minute).
  { rewrite xlates_S. exists (xlates (Z.of_nat (S n)) n ++ [HResp (xr "a" "i" [xd ((Z.of_nat (S n) + Z.of_nat n) * minute) 1 1 0]) 1000 1001]).
    split; [by rewrite <- app_assoc|]. split.
    - intros op Hop. unfold xlate. apply elem_of_app in Hop as [Hop|Hop]; apply elem_of_app; [by left|right]. set_solver +Hop.
    - destruct n as [|n]; [done|]. unfold xlates. cbn. done. }
  destruct Hx as (tr0 & E & Hin & Hc). exists ["a"], tr0, (λ _, Z.of_nat n * minute), s. rewrite <- E.
  assert (Hrep : ∀ key x, reported tr0 key x → ∃ i, key = xkey (Z.of_nat (S n)) i).
  { intros key x (r & t1 & t2 & Hr & Hux). destruct (xlates_reported (Z.of_nat (S n)) (S n) key x) as (i & _ & ->); [|by exists i].
    exists r, t1, t2. split; [by apply Hin|done]. }
  split; [exact H|]. split.
  { intros r t1 t2 Hr Hu. apply Hin, xlates_resp in Hr as (i & _ & ->). split; [done|]. intros x Hx. cbn in Hx.
    apply elem_of_list_singleton in Hx as ->. eexists. split; [reflexivity|done]. }
  split. { intros r t1 t2 d Hr Hu Hd. apply Hin, xlates_resp in Hr as (i & _ & ->). cbn in Hd.
    apply elem_of_list_singleton in Hd. injection Hd as ->. done. }
  split. { intros key x Hk. apply Hrep in Hk as (i & ->). unfold starts, xkey. cbn [fst]. exists (Z.of_nat (S n) + Z.of_nat i). done. }
  split; [exact Hc|]. split. { intros key x Hk _. apply Hrep in Hk as (i & ->). left. }
  lia.
Qed.

(** ** A host that writes its times with an offset: every reading of the same
    page, ten seconds after the other, is held once more *)
Definition xzone : list eop :=
  (seq 0 30 ≫= λ i, [EResp (xr "a" "i" [xd 0 1 1 (2 + N.of_nat i)]); EPurge (Z.of_nat i * 10000000000)]) ++ [EResp (xr "a" "i" [xd 0 1 1 99])].
Lemma xzone_ok : succeeds xzone ["a"] = true. Proof. by vm_compute. Qed.
Definition xzone_end : res hd := hstep (final xzone ["a"]) (HPurge (λ _, 5 * minute)).
Lemma xzone_size : match xzone_end with Ok s => size (hd_host s) = 31%nat | Crash _ => False end. Proof. by vm_compute. Qed.
Lemma trace_purge l : ∀ s, Forall (λ op, match op with HPurge now => ∃ z, EPurge z ∈ l ∧ ∀ k, now k = z | _ => True end) (erun s l).1.
Proof.
  induction l as [|e l IH]; intros s; cbn [erun]; [constructor|].
  assert (match eop_hop s e with HPurge now => ∃ z, EPurge z ∈ e :: l ∧ ∀ k, now k = z | _ => True end) as H.
  { destruct e; cbn; try done. eexists. split; [left|done]. }
  destruct (hstep s (eop_hop s e)) as [s'|w]; cbn; constructor; try done.
  eapply Forall_impl; [apply IH|]. intros []; try done. intros (z & ? & ?). exists z. split; [by right|done].
Qed.
Lemma xzone_resp r : EResp r ∈ xzone → ∃ loc, r = xr "a" "i" [xd 0 1 1 loc].
Proof.
  unfold xzone. rewrite elem_of_app, elem_of_list_bind. intros [(i & H & _)|H].
  - apply elem_of_cons in H as [H|H]; [injection H as ->; eauto|]. apply elem_of_list_singleton in H. done.
  - apply elem_of_list_singleton in H. injection H as ->. eauto.
Qed.
Lemma xzone_purge z : EPurge z ∈ xzone → 0 ≤ z.
Proof.
  unfold xzone. rewrite elem_of_app, elem_of_list_bind. intros [(i & H & _)|H].
  - apply elem_of_cons in H as [H|H]; [done|]. apply elem_of_list_singleton in H. injection H as ->. lia.
  - apply elem_of_list_singleton in H. done.
Qed.
Lemma xzone_reported key x : reported (trace xzone ["a"]) key x → starts key = 0 ∧ source key = ("i", "a").
Proof.
  intros (r & t1 & t2 & H & Hu & Hx). apply trace_elem in H as (H & _). apply xzone_resp in H as (loc & ->).
  unfold reports_at in Hx. apply elem_of_list_omap in Hx as (y & Hy & Hx). cbn in Hy. apply elem_of_list_singleton in Hy as ->.
  cbn in Hx. case_decide as Hk; [|done]. by subst key.
Qed.
Lemma t_zone : ∃ hosts tr now s, hrun (hd_init hosts) (tr ++ [HPurge now]) (Ok s) ∧ well_formed tr ∧ clocks_agree (tr ++ [HPurge now]) ∧
  conf_dur tr = Some 60000000000 ∧ (∀ k, now k = 5 * 60000000000) ∧ (∀ key x, reported tr key x → starts key = 0 ∧ source key = ("i", "a")) ∧
  size (hd_host s) = 31%nat.
Proof.
  assert (H := xzone_size). destruct xzone_end as [s|] eqn:E; [|destruct H].
  exists ["a"], (trace xzone ["a"]), (λ _, 5 * minute), s. split.
  { apply hrun_snoc. eexists. split; [apply run_final, xzone_ok|]. split; [exact I|exact E]. }
  split. { intros r t1 t2 Hr Hu. apply trace_elem in Hr as (Hr & _). apply xzone_resp in Hr as (loc & ->). split; [done|].
    intros x Hx. cbn in Hx. apply elem_of_list_singleton in Hx as ->. eexists. split; [reflexivity|done]. }
  split.
  { intros tr1 now tr2 key x k Etr Hr.
    assert (reported (trace xzone ["a"]) key x) as Hr'.
    { destruct tr2 as [|op tr2 _] using rev_ind; [apply app_inj_tail in Etr as [-> _]; done|].
      rewrite app_comm_cons, app_assoc in Etr. apply app_inj_tail in Etr as [-> _]. destruct Hr as (r & t1 & t2 & Hr & Hux).
      exists r, t1, t2. split; [apply elem_of_app; by left|done]. }
    apply xzone_reported in Hr' as [-> _].
    assert (HPurge now ∈ trace xzone ["a"] ++ [HPurge (λ _, 5 * minute)]) as Hin by (rewrite Etr; set_solver +).
    apply elem_of_app in Hin as [Hin|Hin].
    - assert (Hf := trace_purge xzone (hd_init ["a"])). rewrite Forall_forall in Hf. apply Hf in Hin as (z & Hz & ->). by apply xzone_purge.
    - apply elem_of_list_singleton in Hin. injection Hin as ->. done. }
  split; [by vm_compute|]. split; [done|]. split; [exact xzone_reported|exact H].
Qed.

(** ** Two hosts with the right time, each with the nine intervals that start at
    0:00 to 0:08; purged at 0:08 *)
Definition nine (hp inst : string) : resp := xr hp inst (map (λ i, xd (Z.of_nat i * minute) 1 1 0) (seq 0 9)).
Definition xnine : list eop := [EResp (nine "a" "i"); EResp (nine "b" "j"); ERecalc].
Definition xnine_purged : list eop := xnine ++ [EPurge (8 * minute)].
Lemma xnine_ok : succeeds xnine ["a"; "b"] = true ∧ succeeds xnine_purged ["a"; "b"] = true. Proof. by vm_compute. Qed.
Lemma nine_reported key x : reported (trace xnine ["a"; "b"]) key x →
  source key ∈ [("i", "a"); ("j", "b")] ∧ ∃ i, (i < 9)%nat ∧ starts key = Z.of_nat i * minute.
Proof.
  intros (r & t1 & t2 & H & Hu & Hx). apply trace_elem in H as (H & _).
  assert (∃ hp inst, r = nine hp inst ∧ (inst, hp) ∈ [("i", "a"); ("j", "b")]) as (hp & inst & -> & Hin).
  { unfold xnine in H. apply elem_of_cons in H as [H|H]; [injection H as ->; exists "a", "i"; split; [done|left]|].
    apply elem_of_cons in H as [H|H]; [injection H as ->; exists "b", "j"; split; [done|right; left]|].
    apply elem_of_list_singleton in H. done. }
  unfold reports_at, nine, xr in Hx. apply elem_of_list_omap in Hx as (y & Hy & Hx). cbn [r_aggs r_inst r_hp] in *.
  apply elem_of_list_fmap in Hy as (i & -> & Hi). apply elem_of_seq in Hi. cbn -[minute seq] in Hx. case_decide as Hk; [|done]. subst key.
  split; [exact Hin|]. exists i. split; [lia|done].
Qed.
Lemma t_nine : let tr := trace xnine ["a"; "b"] in
  (∃ s now, hrun (hd_init ["a"; "b"]) (tr ++ [HPurge now]) (Ok s) ∧ (∀ k, now k = 480000000000) ∧ size (hd_host s) = (2 * 6)%nat) ∧
  size (hd_host (final xnine ["a"; "b"])) = 18%nat ∧
  conf_dur tr = Some 60000000000 ∧ one_zone utc tr ∧ on_grid 60000000000 tr ∧ none_after (480000000000 + 0) tr ∧
  has_sources (480000000000 - 5 * 60000000000) tr [("i", "a"); ("j", "b")] ∧ listed tr = 18%nat.
Proof.
  cbn zeta. split_and!.
  - exists (final xnine_purged ["a"; "b"]), (λ _, 480000000000). split.
    + exact (run_final xnine_purged ["a"; "b"] (proj2 xnine_ok)).
    + split; [done|]. by vm_compute.
  - by vm_compute.
  - by vm_compute.
  - intros r t1 t2 d H Hu Hd. apply trace_elem in H as (H & _).
    assert (Some d ∈ map (λ i, xd (Z.of_nat i * minute) 1 1 0) (seq 0 9)) as Hd'.
    { unfold xnine in H. apply elem_of_cons in H as [H|H]; [injection H as ->; exact Hd|].
      apply elem_of_cons in H as [H|H]; [injection H as ->; exact Hd|]. apply elem_of_list_singleton in H. done. }
    apply elem_of_list_fmap in Hd' as (i & Hi & _). injection Hi as ->. done.
  - intros key x Hx. apply nine_reported in Hx as (_ & i & _ & ->). exists (Z.of_nat i). done.
  - intros key x Hx. apply nine_reported in Hx as (_ & i & Hi & ->). unfold minute. lia.
  - intros key x Hx _. by apply nine_reported in Hx as [? _].
  - by vm_compute.
Qed.
