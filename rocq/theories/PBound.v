(** * Proofs about how much healthd holds (C130) *)
From Verif Require Import PContent PHealthd SBound.

Lemma since_le t now d : 5 * d < 2 ^ 63 - 1 → ¬ (5 * d < since now t) → now - 5 * d ≤ t.
Proof.
  intros Hb H. unfold since in H. destruct (_ <? _) eqn:E1 in H; [apply Z.ltb_lt in E1; lia|].
  destruct (_ <? _) eqn:E2 in H; [apply Z.ltb_lt in E2; lia|]. lia.
Qed.

Definition grid (d q : Z) (n : nat) : list Z := map (λ j, d * (q + Z.of_nat j)) (seq 0 n).
Lemma in_grid d t ahead s : 0 < d → 0 ≤ ahead → (d | s) → t - 5 * d ≤ s → s ≤ t + ahead →
  s ∈ grid d ((t - 5 * d + d - 1) / d) (Z.to_nat (6 + ahead / d)).
Proof.
  intros Hd Ha [q ->] Hlo Hhi. set (q0 := (t - 5 * d + d - 1) / d).
  assert (H1 : t - 5 * d ≤ d * q0). { unfold q0. pose proof (Z.mul_succ_div_gt (t - 5 * d + d - 1) d Hd). lia. }
  assert (H2 : q0 ≤ q). { unfold q0. apply Z.lt_succ_r. apply Z.div_lt_upper_bound; [done|]. lia. }
  assert (H3 : q - q0 ≤ ahead / d + 5).
  { replace (ahead / d + 5) with ((ahead + 5 * d) / d) by (rewrite Z.div_add by lia; done).
    apply Z.div_le_lower_bound; [done|]. lia. }
  assert (0 ≤ ahead / d) by (apply Z.div_pos; lia).
  apply elem_of_list_fmap. exists (Z.to_nat (q - q0)). split; [rewrite Z2Nat.id by lia; ring|]. apply elem_of_seq. lia.
Qed.

Lemma size_keys (m : gmap hkey dagg) (l : list hkey) : (∀ k x, m !! k = Some x → k ∈ l) → (size m ≤ length l)%nat.
Proof.
  intros H. change (size m) with (length (map_to_list m)). rewrite <- (fmap_length fst). apply submseteq_length, NoDup_submseteq.
  - apply NoDup_fst_map_to_list.
  - intros k Hk. apply elem_of_list_fmap in Hk as ([k' x] & -> & Hk). apply elem_of_map_to_list in Hk. eauto.
Qed.

Lemma listed_app tr1 tr2 : listed (tr1 ++ tr2) = (listed tr1 + listed tr2)%nat.
Proof. unfold listed. apply sum_list_with_app. Qed.

Lemma thm_after_purge hosts tr now t d ahead srcs loc s : hrun (hd_init hosts) (tr ++ [HPurge now]) (Ok s) →
  conf_dur tr = Some d → 0 < d → 5 * d < 2 ^ 63 - 1 → 0 ≤ ahead → (∀ k, t ≤ now k) →
  one_zone loc tr → on_grid d tr → none_after (t + ahead) tr → has_sources (t - 5 * d) tr srcs →
  Z.of_nat (size (hd_host s)) ≤ Z.of_nat (length srcs) * (6 + ahead / d).
Proof.
  intros H Hc Hd Hb Ha Hn Hz Hg Hl Hs. apply hrun_snoc in H as (m & H1 & _ & H3). cbn in H3.
  assert (Hci := conf_reach _ _ _ H1). unfold conf_inv in Hci. rewrite Hc in Hci. destruct Hci as (_ & Hdd & _).
  apply purge_host in H3 as (Hh & _). rewrite Hdd in Hh.
  assert (Hw : w64 (d * 5) = 5 * d). { rewrite Z.mul_comm. apply w64_id. unfold in_int64. lia. }
  rewrite Hw in Hh.
  set (g := grid d ((t - 5 * d + d - 1) / d) (Z.to_nat (6 + ahead / d))).
  assert (0 ≤ ahead / d) by (apply Z.div_pos; lia).
  assert (Hlen : length (srcs ≫= λ p, map (λ z, ((z, loc), p.1, p.2)) g) = (length srcs * Z.to_nat (6 + ahead / d))%nat).
  { clear -srcs. assert (length g = Z.to_nat (6 + ahead / d)) as Hg by (unfold g, grid; by rewrite fmap_length, seq_length).
    induction srcs as [|p l IH]; [done|]. rewrite bind_cons, app_length, IH, fmap_length, Hg. done. }
  assert ((size (hd_host s) ≤ length (srcs ≫= λ p, map (λ z, ((z, loc), p.1, p.2)) g))%nat) as Hsz; [|rewrite Hlen in Hsz; nia].
  apply size_keys. intros [[[z l] i] h] x Hx. rewrite Hh in Hx. apply map_filter_lookup_Some in Hx as [Hx Hf]. cbn in Hf.
  assert (Hr := stored_reported _ _ _ _ _ H1 Hx).
  assert (Hlo : t - 5 * d ≤ z). { apply since_le in Hf; [|done]. specialize (Hn (z, l, i, h)). lia. }
  assert (l = loc) as ->.
  { destruct Hr as (r & t1 & t2 & Hr & Hu & Hx'). unfold reports_at in Hx'. apply elem_of_list_omap in Hx' as ([y|] & Hy & Hx'); [|done].
    case_decide as Hk; [|done]. injection Hx' as <-. injection Hk as _ <- _ _. eapply Hz; eauto. }
  apply elem_of_list_bind. exists (i, h). split.
  - apply elem_of_list_fmap. exists z. split; [done|]. apply in_grid; try done.
    + exact (Hg _ _ Hr).
    + exact (Hl _ _ Hr).
  - exact (Hs _ _ Hr Hlo).
Qed.

(** ** Between purges *)
Lemma ca_size inst hp l : ∀ host need x, consume_aggs inst hp l host need = Ok x →
  (size x.1 ≤ size host + length l)%nat ∧ (size x.2 ≤ size need + length l)%nat.
Proof.
  induction l as [|[d|] l IH]; intros host need x H; cbn in H; [injection H as <-; cbn; lia| |done].
  assert (Hs : (size (<[(d_time d, inst, hp) := d]> host) ≤ S (size host))%nat).
  { destruct (host !! (d_time d, inst, hp)) eqn:E.
    - rewrite map_size_insert_Some by eauto. lia.
    - rewrite map_size_insert_None by done. lia. }
  assert (Hn : (size ({[d_time d]} ∪ need : gset gotime) ≤ S (size need))%nat).
  { rewrite size_union_alt. assert ((size (need ∖ {[d_time d]}) ≤ size need)%nat) by (apply subseteq_size; set_solver +). rewrite size_singleton. lia. }
  destruct (host !! _) as [old|]; [destruct (_ =? _)|]; apply IH in H as [H1 H2]; cbn; lia.
Qed.

Lemma step_size hosts tr op s s' : hrun (hd_init hosts) tr (Ok s) → hop_ok s op → hstep s op = Ok s' →
  (size (hd_host s') ≤ size (hd_host s) + listed [op])%nat ∧ (size (hd_need s') ≤ size (hd_need s) + listed [op])%nat.
Proof.
  intros H1 Ho H. destruct op as [r t1 t2|now|o]; cbn in H.
  - apply (consume_cases tr) in H as (_ & _ & _ & [[[Hu _] Ha]|(_ & -> & ->)]); [| |by eapply conf_reach]; [|lia].
    apply ca_size in Ha as [Ha Hb]. unfold listed. cbn. rewrite decide_True by done. cbn in *. lia.
  - apply purge_host in H as (-> & -> & _). split; [|lia].
    rewrite Nat.add_0_r. change (size (hd_host s)) with (length (map_to_list (hd_host s))).
    rewrite <- (fmap_length fst). apply size_keys. intros k x Hx. apply map_filter_lookup_Some in Hx as [Hx _].
    apply elem_of_list_fmap. exists (k, x). split; [done|]. by apply elem_of_map_to_list.
  - apply recalc_host in H as (-> & -> & _). rewrite size_empty. lia.
Qed.

Lemma run_size hosts tr1 s1 : hrun (hd_init hosts) tr1 (Ok s1) → ∀ tr2 s2, hrun s1 tr2 (Ok s2) →
  (size (hd_host s2) ≤ size (hd_host s1) + listed tr2)%nat ∧ (size (hd_need s2) ≤ size (hd_need s1) + listed tr2)%nat.
Proof.
  intros H1 tr2. induction tr2 as [|op tr2 IH] using rev_ind; intros s2 H2.
  - inversion H2; subst. lia.
  - apply hrun_snoc in H2 as (m & H2 & Ho & H3). specialize (IH _ H2).
    apply (step_size hosts (tr1 ++ tr2)) in H3; [|by apply hrun_app; eauto|done]. rewrite listed_app. lia.
Qed.

Lemma thm_between hosts tr1 now tr2 t d ahead srcs loc s : hrun (hd_init hosts) (tr1 ++ HPurge now :: tr2) (Ok s) →
  conf_dur tr1 = Some d → 0 < d → 5 * d < 2 ^ 63 - 1 → 0 ≤ ahead → (∀ k, t ≤ now k) →
  one_zone loc tr1 → on_grid d tr1 → none_after (t + ahead) tr1 → has_sources (t - 5 * d) tr1 srcs →
  Z.of_nat (size (hd_host s)) ≤ Z.of_nat (length srcs) * (6 + ahead / d) + Z.of_nat (listed tr2).
Proof.
  intros H Hc Hd Hb Ha Hn Hz Hg Hl Hs. rewrite cons_middle, app_assoc in H. apply hrun_app in H as (m & H1 & H2).
  destruct (run_size _ _ _ H1 _ _ H2) as [Hx _].
  assert (Hy := thm_after_purge _ _ _ _ _ _ _ _ _ H1 Hc Hd Hb Ha Hn Hz Hg Hl Hs). lia.
Qed.

Lemma thm_pending hosts tr1 o tr2 s : hrun (hd_init hosts) (tr1 ++ HRecalc o :: tr2) (Ok s) →
  (size (hd_need s) ≤ listed tr2)%nat.
Proof.
  intros H. rewrite cons_middle, app_assoc in H. apply hrun_app in H as (m & H1 & H2).
  destruct (run_size _ _ _ H1 _ _ H2) as [_ Hx].
  apply hrun_snoc in H1 as (m' & _ & _ & H3). cbn in H3. apply recalc_host in H3 as (_ & Hn & _). rewrite Hn, size_empty in Hx. lia.
Qed.
