(** * Proofs about whole executions: what the jobs page lists *)
From Verif Require Import SHealth SApi SSystem PContent PMerge2 PHealthd PHealthd2 PHealthd3 PApi PSystem.

Section page.
  Context (ff : f64 → string) (d : Z) (P : nat → proc) (zone : N) (TR : list sev).
  Context (Hff : float_codec ff) (H64 : in_int64 d) (Hd : 0 < d) (HP : procs_ok d P TR).
  Context (hosts : list string) (ops : list hop) (o : rorder) (st : MHealthd.hd).
  Context (HS : sys ff d P zone TR (ops ++ [HRecalc o])) (HR : hrun (hd_init hosts) (ops ++ [HRecalc o]) (Ok st)).
  Context (Hkept : ∀ p, p ∈ hd_pub st → kept d (ia_start (pa_ia p)) TR).

  Lemma content_jobs i k s j : is_Some (ia_jobs (d_ia (content d zone TR i k s)) !! j) ↔ of_job j (cmds_in d s (take k (hist i TR))) ≠ [].
  Proof.
    unfold content. cbn. rewrite lookup_fmap, fmap_is_Some, ia_of_jobs.
    destruct (of_job j _); (split; [|intros; eauto]); [by intros []|done|done].
  Qed.
  Notation said s i k := (cmds_in d s (take k (hist i TR))).

  Lemma pub_starts : NoDup (map (λ p, ia_start (pa_ia p)) (hd_pub st)).
  Proof using All.
    assert (Hpi := pub_reach _ _ _ HR (λ x, sys_pos _ _ _ _ _ Hff H64 Hd HP _ x HS)). destruct Hpi as [Hn _ _].
    assert (map pa_time (hd_pub st) = map (λ s, (s, zone)) (map (λ p, ia_start (pa_ia p)) (hd_pub st))) as E.
    { rewrite map_map. apply map_ext_in. intros p Hp%elem_of_list_In. by eapply (system_zone ff d P zone TR Hff H64 Hd HP). }
    rewrite E in Hn. by apply NoDup_fmap_1 in Hn.
  Qed.

  Lemma page_detail ps : (∀ p, p ∈ ps → p ∈ hd_pub st) → NoDup (map (λ p, ia_start (pa_ia p)) ps) →
    ∃ L : list (Z * nat * nat), NoDup L ∧
      (∀ s i k, (s, i, k) ∈ L ↔ (∃ p, p ∈ ps ∧ ia_start (pa_ia p) = s) ∧ heard d P TR i s k) ∧
      (∀ c, w64 (zsum (map (ctr_val c) (map pa_ia ps))) = w64 (zsum (map (λ x : Z * nat * nat, tally c (said x.1.1 x.1.2 x.2)) L))) ∧
      (∀ j, (∃ x, x ∈ map pa_ia ps ∧ is_Some (ia_jobs x !! j)) ↔ ∃ s i k, (s, i, k) ∈ L ∧ of_job j (said s i k) ≠ []).
  Proof using All.
    induction ps as [|p ps IH]; intros Hin Hnd.
    { exists []. split; [constructor|]. split; [|split; [done|]].
      - intros s i k. split; [by intros []%elem_of_nil|]. by intros [(p & []%elem_of_nil & _) _].
      - intros j. split; [by intros (x & []%elem_of_nil & _)|]. by intros (s & i & k & []%elem_of_nil & _). }
    cbn [map] in Hnd. apply NoDup_cons in Hnd as [Hnp Hnd].
    destruct IH as (L & L1 & L2 & L3 & L4); [intros q Hq; apply Hin; by right|done|].
    assert (p ∈ hd_pub st) as Hp by (apply Hin; left). set (s0 := ia_start (pa_ia p)) in *.
    assert (pa_time p = (s0, zone)) as Hpt by (by eapply (system_zone ff d P zone TR Hff H64 Hd HP)).
    destruct (system_detail ff d P zone TR Hff H64 Hd HP _ _ _ _ _ _ HS HR (Hkept p Hp) Hp Hpt) as (l & D1 & D2 & D3).
    exists (map (λ ik : nat * nat, (s0, ik.1, ik.2)) l ++ L). split; [|split; [|split]].
    - apply NoDup_app. split; [|split; [|done]].
      + apply NoDup_fmap_2; [intros [a b] [a' b'] E; cbn in E; congruence|]. by apply NoDup_fmap_1 in D1.
      + intros [[s i] k] Hx HL. apply elem_of_list_fmap in Hx as (y & [= -> -> ->] & _).
        apply L2 in HL as [(q & Hq & E) _]. apply Hnp. apply elem_of_list_fmap. eauto.
    - intros s i k. rewrite elem_of_app, L2. split.
      + intros [Hx|[(q & Hq & E) Hh]].
        * apply elem_of_list_fmap in Hx as ([i' k'] & [= -> -> ->] & Hy). split; [|by apply D2]. exists p. split; [left|done].
        * split; [|done]. exists q. split; [by right|done].
      + intros [(q & Hq & E) Hh]. apply elem_of_cons in Hq as [->|Hq]; [|right; eauto].
        left. apply elem_of_list_fmap. exists (i, k). subst s. split; [done|]. by apply D2.
    - intros c. cbn [map zsum foldr]. rewrite map_app, zsum_app. unfold zsum in L3 |- *.
      rewrite <- w64_add_r, L3, w64_add_r, <- w64_add_l, <- (w64_add_l (foldr _ _ _)). f_equal. f_equal. fold zsum.
      rewrite D3. edestruct (merge_all_ctr c) as [-> _].
      { intros x Hx. apply elem_of_list_fmap in Hx as (y & -> & Hy). by eapply content_int64. }
      rewrite !map_map, w64_w64.
      change (foldr Z.add 0 ?x) with (zsum x). 
      rewrite <- (zsum_w64 (λ ik : nat * nat, tally c (said s0 ik.1 ik.2))). f_equal. f_equal. apply map_ext. intros y. apply content_ctr.
    - intros j. split.
      + intros (x & Hx & Hj). cbn [map] in Hx. apply elem_of_cons in Hx as [->|Hx].
        * rewrite D3, merge_all_jobs in Hj. destruct Hj as (y & Hy & Hj). apply elem_of_list_fmap in Hy as ([i k] & -> & Hy).
          apply content_jobs in Hj. exists s0, i, k. split; [|done]. apply elem_of_app. left. apply elem_of_list_fmap. exists (i, k). done.
        * destruct (proj1 (L4 j)) as (s & i & k & HL & Hj'); [eauto|]. exists s, i, k. split; [|done]. apply elem_of_app. by right.
      + intros (s & i & k & HL & Hj). apply elem_of_app in HL as [HL|HL].
        * apply elem_of_list_fmap in HL as ([i' k'] & [= -> -> ->] & Hy). exists (pa_ia p). split; [left|].
          rewrite D3, merge_all_jobs. eexists. split; [apply elem_of_list_fmap; exists (i', k'); done|]. by apply content_jobs.
        * destruct (proj2 (L4 j)) as (x & Hx & Hj'); [eauto 10|]. exists x. split; [|done]. cbn [map]. by right.
  Qed.

  Lemma system_page srt order sort limit js :
    correct_sort srt → (∀ x, handler_overall (map pa_ia (hd_pub st)) = Some x → order ≡ₚ map_to_list (ia_jobs x)) →
    handler_jobs srt (map pa_ia (hd_pub st)) order sort limit = Some js →
    ∃ L : list (Z * nat * nat), NoDup L ∧
      (∀ s i k, (s, i, k) ∈ L ↔ (∃ p, p ∈ hd_pub st ∧ ia_start (pa_ia p) = s) ∧ heard d P TR i s k) ∧
      (∀ r, r ∈ js →
        let total c := w64 (zsum (map (λ x : Z * nat * nat, tally (KJob (aj_name r) c) (said x.1.1 x.1.2 x.2)) L)) in
        aj_count r = total KCount ∧ aj_success r = total KSuccess ∧ aj_verror r = total KVError ∧ aj_panic r = total KPanic ∧
        aj_error r = total KError ∧ aj_junk r = total KJunk ∧ aj_sum r = total KSum) ∧
      NoDup (map aj_name js) ∧
      (get_limit limit ≤ 0 → ∀ j, j ∈ map aj_name js ↔ ∃ s i k, (s, i, k) ∈ L ∧ of_job j (said s i k) ≠ []).
  Proof using All.
    intros Hc Ho Hj. destruct (page_detail (hd_pub st) (λ p H, H) pub_starts) as (L & L1 & L2 & L3 & L4).
    exists L. split; [done|]. split; [done|]. unfold handler_jobs in Hj.
    assert (∀ x, x ∈ map pa_ia (hd_pub st) → int64_ia x) as Hint.
    { intros x Hx. apply elem_of_list_fmap in Hx as (p & -> & Hp).
      eapply (system_int64 ff d P zone TR Hff H64 Hd HP _ _ _ _ _ _ HS HR (Hkept p Hp) Hp). by eapply (system_zone ff d P zone TR Hff H64 Hd HP). }
    destruct (map pa_ia (hd_pub st)) as [|i aggs] eqn:E; [done|].
    destruct (thm_overall_sums i aggs Hint) as (ov & O1 & _ & O3 & O4). unfold handler_overall in O1, Ho. rewrite O1 in Hj.
    destruct (thm_filter_jobs srt ov order sort (get_limit limit) Hc (Ho _ O1)) as (js' & rest & F1 & F2 & F3 & F4 & F5 & _).
    rewrite F1 in Hj. injection Hj as ->. split; [|split].
    - intros r Hr total. destruct (F2 r) as (ja & Ja & T1 & T2 & T3 & T4 & T5 & T6 & T7 & _); [apply elem_of_app; by left|].
      assert (∀ c, jctr_val c ja = total c) as Hv.
      { intros c. unfold total. rewrite <- L3, <- O3. cbn [ctr_val]. unfold mget. by rewrite Ja. }
      rewrite <- !Hv. done.
    - rewrite map_app in F3. by apply NoDup_app in F3 as (? & _).
    - intros Hlim j. rewrite decide_False in F5 by lia. rewrite <- L4, <- O4, F4.
      assert (rest = []) as ->; [|by rewrite app_nil_r]. apply nil_length_inv.
      assert (map aj_name (js ++ rest) ≡ₚ map fst (map_to_list (ia_jobs ov))) as Hperm.
      { apply NoDup_Permutation; [done|apply NoDup_fst_map_to_list|]. intros x. rewrite <- F4, elem_of_list_fmap. split.
        - intros [ja Ja]. exists (x, ja). split; [done|]. by apply elem_of_map_to_list.
        - intros ([y ja] & -> & Ja). exists ja. by apply elem_of_map_to_list in Ja. }
      apply Permutation_length in Hperm. rewrite !map_length, app_length in Hperm. unfold size, map_size in F5. lia.
  Qed.
End page.
