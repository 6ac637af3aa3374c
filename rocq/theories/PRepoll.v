(** * Proofs: exactly when an unchanged answer costs a recalculation (C54) *)
From Verif Require Import SHealthd SRepoll PHealthd PHealthd2 PHealthd4 PHealthd5 PKeep.

Lemma ca_need_mono inst hp l : ∀ host need host' need', consume_aggs inst hp l host need = Ok (host', need') → need ⊆ need'.
Proof.
  induction l as [|[d|] l IH]; intros host need host' need' H; [by injection H as <- <-| |done].
  apply ca_step in H as (h1 & n1 & H & Hc). apply IH in H. destruct Hc as [(old & _ & _ & -> & ->)|(_ & -> & ->)]; set_solver.
Qed.
Lemma ca_need_empty inst hp l : ∀ host host', consume_aggs inst hp l host ∅ = Ok (host', ∅) → known inst hp l host.
Proof.
  induction l as [|[d|] l IH]; intros host host' H; [intros x Hx; by apply elem_of_nil in Hx| |done].
  apply ca_step in H as (h1 & n1 & H & Hc). destruct Hc as [(old & Ho & Hs & -> & ->)|(_ & -> & ->)].
  - intros x Hx. apply elem_of_cons in Hx as [[= ->]|Hx]; [eauto|]. by eapply IH.
  - apply ca_need_mono in H. set_solver.
Qed.
Lemma keep_same {A} (n : A → Z) v l : l ≠ [] → (∀ x, x ∈ l → n x = v) → ∀ acc, ∃ d, fold_left (keep n) l acc = Some d ∧ n d = v.
Proof.
  intros Hl Hv acc. destruct l as [|x l]; [done|]. clear Hl. revert x acc Hv. induction l as [|y l IH]; intros x acc Hv.
  - assert (n x = v) as Hx by (apply Hv; left). cbn. destruct acc as [o|]; cbn; [|eauto]. destruct (Z.eqb_spec (n o) (n x)); [|eauto]. exists o. split; [done|congruence].
  - cbn [fold_left]. apply IH. intros z Hz. apply Hv. by right.
Qed.
Lemma known_iff inst hp l host need host' need' : consume_aggs inst hp l host need = Ok (host', need') →
  (known inst hp l host' ↔ ∀ key d1 d2, d1 ∈ rl inst hp l key → d2 ∈ rl inst hp l key → ia_serial (d_ia d1) = ia_serial (d_ia d2)).
Proof.
  intros H. assert (HE : ∀ key d, d ∈ rl inst hp l key ↔ Some d ∈ l ∧ (d_time d, inst, hp) = key).
  { intros key d. unfold rl. rewrite elem_of_list_omap. split.
    - intros ([y|] & Hy & E); [|done]. destruct (decide _) as [Ek|]; [|done]. injection E as ->. done.
    - intros [Hd Hk]. exists (Some d). split; [done|]. by rewrite decide_True. }
  split.
  - intros Hk key d1 d2 H1 H2. apply HE in H1 as [H1 E1]. apply HE in H2 as [H2 E2].
    destruct (Hk _ H1) as (o1 & Ho1 & S1). destruct (Hk _ H2) as (o2 & Ho2 & S2). congruence.
  - intros Hall d Hd. assert (d ∈ rl inst hp l (d_time d, inst, hp)) as Hr by (by apply HE).
    rewrite (ca_fold _ _ _ _ _ _ _ (d_time d, inst, hp) H).
    destruct (keep_same (λ x, ia_serial (d_ia x)) (ia_serial (d_ia d)) (rl inst hp l (d_time d, inst, hp))) with (acc := host !! (d_time d, inst, hp)) as (y & Ey & Sy).
    + intros E. rewrite E in Hr. by apply elem_of_nil in Hr.
    + intros x Hx. by eapply Hall.
    + eauto.
Qed.
Lemma thm_repoll_exactly hosts tr r t1 t2 o s r' t1' t2' s' :
  hrun (hd_init hosts) (tr ++ [HResp r t1 t2; HRecalc o]) (Ok s) → counted tr r → same_report r r' →
  hstep s (HResp r' t1' t2') = Ok s' →
  (hd_need s' = ∅ ↔ ∀ key d1 d2, d1 ∈ reports_at r key → d2 ∈ reports_at r key → ia_serial (d_ia d1) = ia_serial (d_ia d2)).
Proof.
  intros H Hct Hs Hst. change [HResp r t1 t2; HRecalc o] with ([HResp r t1 t2] ++ [HRecalc o]) in H. rewrite app_assoc in H.
  pose proof (conf_reach _ _ _ H) as Hc. apply hrun_snoc in H as (m & Hm & _ & Hrc). cbn in Hrc, Hst.
  apply recalc_host in Hrc as (Hh & Hn & _). apply hrun_snoc in Hm as (m0 & Hm0 & _ & Hm). cbn in Hm.
  apply (consume_cases tr) in Hm as (_ & _ & _ & [[_ Ha]|[X _]]); [|done|by eapply conf_reach].
  destruct (consume_cases _ _ _ _ _ _ Hc Hst) as (_ & _ & _ & Hcase).
  destruct Hs as (Q1 & Q2 & Q3 & Q4 & Q5 & Q6).
  assert (counted ((tr ++ [HResp r t1 t2]) ++ [HRecalc o]) r') as Hct'.
  { destruct Hct as [Hu Hd]. split; [unfold usable; by rewrite Q2, Q3|].
    assert (conf_dur ((tr ++ [HResp r t1 t2]) ++ [HRecalc o]) = Some (r_dur r)) as ->; [|done].
    destruct (conf_dur tr) as [d|] eqn:E.
    - rewrite <- app_assoc, (conf_app_some _ _ _ E). congruence.
    - apply conf_app_some. rewrite conf_snoc_good by done. by rewrite E. }
  destruct Hcase as [[_ Hb]|[X _]]; [|done]. rewrite Q1, Q4, Q6, Hn, Hh in Hb.
  rewrite <- (known_iff _ _ _ _ _ _ _ Ha). split.
  - intros E. rewrite E in Hb. by eapply ca_need_empty.
  - intros Hk. rewrite ca_idem in Hb; [|by eapply ca_none|done]. by injection Hb as _ <-.
Qed.

(** ** any serial numbers *)
Lemma host_fold hosts key tr : ∀ before s0 s, hrun (hd_init hosts) before (Ok s0) → hrun s0 tr (Ok s) →
  (∀ tra now trb, tr = tra ++ HPurge now :: trb → ¬ expires (before ++ tra) key now) →
  hd_host s !! key = fold_left (keep (λ d, ia_serial (d_ia d))) (entries before tr key) (hd_host s0 !! key).
Proof.
  induction tr as [|op tr IH]; intros before s0 s H0 H Hx; [by inversion H; subst|].
  apply hrun_cons in H as (m & Hok & Hs & H).
  assert (Hm : hrun (hd_init hosts) (before ++ [op]) (Ok m)) by (apply hrun_snoc; eauto).
  rewrite (IH (before ++ [op]) m s Hm H).
  2:{ intros tra now trb E. rewrite <- app_assoc. apply (Hx (op :: tra) now trb). by rewrite E. }
  cbn [entries]. rewrite fold_left_app. f_equal.
  pose proof (conf_reach _ _ _ H0) as Hc. destruct op as [r t1 t2|now|o]; cbn in Hs.
  - apply (consume_cases before) in Hs as (_ & _ & _ & [[Hct Ha]|(Hct & Hho & _)]); [| |done].
    + rewrite decide_True by done. by rewrite (ca_fold _ _ _ _ _ _ _ key Ha).
    + rewrite decide_False by done. by rewrite Hho.
  - apply purge_host in Hs as (Hho & _). cbn. rewrite Hho.
    assert (hd_dur s0 = default 0 (conf_dur before)) as Hd.
    { unfold conf_inv in Hc. destruct (conf_dur before); cbn; [by destruct Hc as (_ & ? & _)|by destruct Hc as (? & _)]. }
    destruct (hd_host s0 !! key) as [d|] eqn:E.
    + apply map_filter_lookup_Some. split; [done|]. rewrite Hd. specialize (Hx [] now tr eq_refl). by rewrite app_nil_r in Hx.
    + apply map_filter_lookup_None. by left.
  - apply recalc_host in Hs as (Hho & _). cbn. by rewrite Hho.
Qed.
Lemma thm_stored_any hosts before tr s key : hrun (hd_init hosts) (before ++ tr) (Ok s) →
  (before = [] ∨ ∃ tr1 now, before = tr1 ++ [HPurge now] ∧ expires tr1 key now) →
  (∀ tra now trb, tr = tra ++ HPurge now :: trb → ¬ expires (before ++ tra) key now) →
  match hd_host s !! key with None => entries before tr key = [] | Some d => stays (entries before tr key) d end.
Proof.
  intros H Hb Hx. apply hrun_app in H as (s0 & H0 & H). rewrite (host_fold hosts key tr before s0 s H0 H Hx).
  assert (hd_host s0 !! key = None) as ->.
  { destruct Hb as [->|(tr1 & now & -> & He)].
    - inversion H0; subst. by apply lookup_empty.
    - apply hrun_snoc in H0 as (m & Hm & _ & Hp). cbn in Hp. apply purge_host in Hp as (-> & _). pose proof (conf_reach _ _ _ Hm) as Hc.
      assert (hd_dur m = default 0 (conf_dur tr1)) as Hd.
      { unfold conf_inv in Hc. destruct (conf_dur tr1); cbn; [by destruct Hc as (_ & ? & _)|by destruct Hc as (? & _)]. }
      apply map_filter_lookup_None. right. intros d _ Hn. apply Hn. rewrite Hd. exact He. }
  destruct (entries before tr key) as [|x l] eqn:E; [done|].
  destruct (keep_left (λ d, ia_serial (d_ia d)) (x :: l)) as (d & -> & Hl); [done|]. exact Hl.
Qed.

(** ** C53: exactly when the published intervals increase *)
Lemma thm_sorted_exactly hosts tr s : hrun (hd_init hosts) tr (Ok s) → well_formed tr →
  (increasing (hd_pub s) ↔ ∀ p q, p ∈ hd_pub s → q ∈ hd_pub s → ia_start (pa_ia p) = ia_start (pa_ia q) → pa_loc p = pa_loc q).
Proof.
  intros Hr W. destruct (t_bounded _ _ _ Hr W) as [S [D _]]. unfold increasing. revert S D. clear.
  induction (hd_pub s) as [|x l IH]; intros S D.
  - split; [intros _ p q Hp; by apply elem_of_nil in Hp|]. intros _. constructor.
  - apply StronglySorted_inv in S as [S F]. apply NoDup_cons in D as [N D]. specialize (IH S D). rewrite Forall_forall in F. split.
    + intros I. apply StronglySorted_inv in I as [I G]. rewrite Forall_forall in G. pose proof (proj1 IH I) as J.
      intros p q Hp Hq E. apply elem_of_cons in Hp as [-> | Hp]; apply elem_of_cons in Hq as [-> | Hq]; [done| | |by apply J].
      * specialize (G _ Hq). lia.
      * specialize (G _ Hp). lia.
    + intros H. constructor; [apply (proj2 IH); intros p q Hp Hq; apply H; by right|].
      apply Forall_forall. intros y Hy. specialize (F _ Hy).
      destruct (decide (ia_start (pa_ia x) = ia_start (pa_ia y))) as [E|E]; [|cbn in F; lia].
      exfalso. apply N. apply (proj2 (elem_of_list_fmap pa_time l (pa_time x))). exists y. split; [|done].
      unfold pa_time. rewrite E. f_equal. apply H; [left|by right|done].
Qed.
