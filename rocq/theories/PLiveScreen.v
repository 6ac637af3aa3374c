(** * What was taken comes to be on healthtop's screen (C127) *)
From Verif Require Import PFair PApi PHealthd PHealthdLoop PHealthdLoop2 PTopTable PSystem PScreen PLiveHealthd PLiveSystem PLiveTop SLive8.

Lemma all_jobs d tr (L : list (Z * nat * nat)) : ∃ all, NoDup all ∧ ∀ job, job ∈ all ↔ occurring d tr L job.
Proof.
  exists (remove_dups (concat (map (λ x : Z * nat * nat, map cmd_job (cmds_in d x.1.1 (take x.2 (hist x.1.2 tr)))) L))).
  split; [apply NoDup_remove_dups|]. intros job. rewrite elem_of_remove_dups, elem_of_list_In, in_concat. unfold occurring. split.
  - intros (l&Hl&Hj). apply in_map_iff in Hl as ([[s i] k]&<-&Hin). apply in_map_iff in Hj as (c&<-&Hc). exists s, i, k. rewrite elem_of_list_In. split; [done|].
    intros E. apply elem_of_list_In in Hc. assert (Hf : c ∈ of_job (cmd_job c) (cmds_in d s (take k (hist i tr)))) by (by apply elem_of_list_filter).
    rewrite E in Hf. by apply elem_of_nil in Hf.
  - intros (s&i&k&Hin&Hne). destruct (of_job job _) as [|c l] eqn:E; [done|]. clear Hne.
    assert (Hf : c ∈ of_job job (cmds_in d s (take k (hist i tr)))) by (rewrite E; left). apply elem_of_list_filter in Hf as [<- Hc].
    eexists. split; [apply in_map_iff; exists (s, i, k); split; [done|by apply elem_of_list_In]|]. apply in_map_iff. exists c. split; [done|by apply elem_of_list_In].
Qed.
Lemma of_job_prefix d s job h h' : h `prefix_of` h' → of_job job (cmds_in d s h) ≠ [] → of_job job (cmds_in d s h') ≠ [].
Proof.
  intros [z ->] H. unfold cmds_in, of_job in *. rewrite omap_app, filter_app. destruct (filter _ _); [done|by destruct (filter _ _)].
Qed.
Lemma hist_prefix i tr tr' k k' : tr `prefix_of` tr' → (k ≤ k')%nat → take k (hist i tr) `prefix_of` take k' (hist i tr').
Proof.
  intros [z ->] Hk. rewrite hist_app, firstn_app. etrans; [|by eexists]. exists (take (k' - k) (drop k (hist i tr))).
  rewrite take_take_drop. f_equal. lia.
Qed.

Section Screen.
  Context (ff : f64 → string) (d : Z) (P : nat → proc) (zone : N) (hosts : list string) (x : exec hl (Z * hact)) (trs : nat → list sev).
  Context (Hff : float_codec ff) (H64 : in_int64 d) (Hd : 0 < d).
  Context (Hx : healthd_exec hosts x) (Hf : healthd_fair x) (Ht : time_passes x) (Hn : never (is_act is_stop) x).
  Context (Hs : system_exec ff d P zone x trs) (Hio : ∀ n, in_order (trs n)) (Hup : unpurged d x trs).
  Context (srt : sorting_fn ajob) (sort name inst : string) (height : nat → Z) (y : exec (tloop (list ajob)) (tlev (list ajob))).
  Context (Hsrt : correct_sort srt) (Hi : good_name inst) (Hh : ∀ i, height i < 2 ^ 63).
  Context (Hy : top_exec ff srt sort name inst height x y).
  Context (bold : string → string) (color : tcolor → string → string) (Hb : decorates bold) (Hc : ∀ c, decorates (color c)).

  Lemma fired r o' : ops (acts x (S r)) = ops (acts x r) ++ [HRecalc o'] → happens (is_act recalculates) x r.
  Proof using.
    rewrite acts_S. unfold ops. rewrite omap_app. intros E%app_inv_head. destruct (x_act x r) as [[t a]|] eqn:Ea; [|done]. cbn in E.
    exists (t, a). split; [done|]. unfold is_act, recalculates. by destruct a.
  Qed.
  Lemma screen_live n t k0 r t1 t2 i s k job : x_act x n = Some (t, HTakeResp k0 r t1 t2) → heard d P (trs (S n)) i s k →
    of_job job (cmds_in d s (take k (hist i (trs (S n))))) ≠ [] → occurs name job →
    ∃ m, (n < m)%nat ∧ ∀ m', (m ≤ m')%nat → kept d s (trs m') →
      ∃ a text head lines p n', on_screen y m' = Some a ∧ jobs_table bold color (map Some a) = Ok text ∧ is_table text (head :: lines) ∧
        map (visible false) head = job_columns ∧ (polls_before y n ≤ p)%nat ∧ (n < n' ≤ m')%nat ∧
        (full d s (hd_pub (l_hd (x_at x n'))) ∨ (name = "" ∧ Z.of_nat (length lines) = max_rows (height p)) ∨
         ∃ L k' cells, cells ∈ lines ∧ job_line job (emitted_for d (trs n') L job) cells ∧
           NoDup L ∧ (∀ s i k, (s, i, k) ∈ L ↔ (∃ p, p ∈ hd_pub (l_hd (x_at x n')) ∧ ia_start (pa_ia p) = s) ∧ heard d P (trs n') i s k) ∧
           (s, i, k') ∈ L ∧ (k ≤ k')%nat).
  Proof using All.
    intros Ha Hhe Hjob Hocc. destruct (healthd_recalc hosts x Hx Hf Hn n t k0 r t1 t2 Ht Ha) as (m0&t'&o&Hm0&Hfire).
    destruct (up_to_date y (te_exec _ _ _ _ _ _ _ _ Hy) (te_start _ _ _ _ _ _ _ _ Hy) (S m0) (te_fair _ _ _ _ _ _ _ _ Hy) (te_ends _ _ _ _ _ _ _ _ Hy) (te_pages _ _ _ _ _ _ _ _ Hy)) as (m1&Hm1).
    exists (max m1 (S n)). split; [lia|]. intros k1 Hk1 Hkept. destruct (Hm1 k1 ltac:(lia)) as (a&p&j&Hsc&Hp&Hj&Hans). clear Hm1.
    destruct (te_page _ _ _ _ _ _ _ _ Hy _ _ _ Hans) as (m'&t''&j'&l&Hmj&Hpm&Hret&Htp).
    assert (Hm' : (m0 < m')%nat).
    { destruct (decide (m0 < m')%nat) as [|Hge]; [done|]. pose proof (polls_before_le y m' (S m0) ltac:(lia)). lia. }
    destruct (since_recalc ff d P zone hosts x trs Hff H64 Hd Hx Hs m0 t' o Hfire m' Hm') as (q&o'&Hq&Eo&Ep).
    assert (El : l = hd_pub (l_hd (x_at x m'))).
    { assert (Hreach : hlsteps (hl_init hosts) (acts x m') (x_at x m')).
      { clear -Hx. induction m' as [|n IH]; [rewrite (he_start _ _ Hx); constructor|]. rewrite acts_S.
        destruct (next _ x n (he_exec _ _ Hx)) as [[-> ->]|(a&->&Hst)]; [by rewrite app_nil_r|]. apply hlsteps_snoc. eauto. }
      pose proof (reply_inv _ _ _ Hreach) as Hr. destruct (next _ x m' (he_exec _ _ Hx)) as [[E _]|([u b]&E&St)]; [congruence|].
      rewrite Hret in E. injection E as <- <-. revert St. generalize (x_at x (S m')). intros s' St. unfold reply_ok in Hr. inversion St; subst.
      match goal with H : l_loop _ = _ |- _ => by rewrite H in Hr end. }
    rewrite Ep in El. subst l.
    assert (Hr : hrun (hd_init hosts) (ops (acts x (S q))) (Ok (l_hd (x_at x (S q))))).
    { apply loop_ops; [|apply (he_crash _ _ Hx)]. clear -Hx. induction (S q) as [|n IH]; [rewrite (he_start _ _ Hx); constructor|]. rewrite acts_S.
      destruct (next _ x n (he_exec _ _ Hx)) as [[-> ->]|(a&->&Hst)]; [by rewrite app_nil_r|]. apply hlsteps_snoc. eauto. }
    pose proof (se_sys _ _ _ _ _ _ Hs (S q)) as HS. rewrite Eo in Hr, HS.
    assert (HP := se_ok _ _ _ _ _ _ Hs (S q)).
    pose proof (fired q o' Eo) as Hfq.
    assert (Hall : ∀ p, p ∈ hd_pub (l_hd (x_at x (S q))) → kept d (ia_start (pa_ia p)) (trs (S q))) by (intros; by eapply Hup).
    assert (Hk : kept d s (trs (S q))).
    { intros now key Hin. apply Hkept. destruct (trs_le ff d P zone x trs Hs (S q) k1) as (z&->); [lia|]. apply elem_of_app. by left. }
    destruct Htp as (order&dur&msg&e&now&body&js&Hord&Hdur&Hleg&Hbody&Hdec&->). cbn zeta in *.
    destruct (screen_detail ff d P zone (trs (S q)) Hff H64 Hd HP hosts _ _ _ HS Hr Hall srt order Hsrt Hord sort name (height p) msg inst dur e now bold color Hi Hdur (Hh p) Hb Hc Hleg)
      as (body'&js'&text&head&lines&L&B1&B2&B3&B4&B5&[L1 L2]&jobs&J1&J2&J3&J4&J5).
    rewrite Hbody in B1. injection B1 as <-. rewrite Hdec in B2. injection B2 as B2. assert (js' = js) as ->. { clear -B2. revert js' B2. induction js; intros [|] E; cbn in E; try done. injection E as -> E. f_equal. by apply IHjs. }
    exists (top_jobs js name), text, head, lines, p, (S q). do 4 (split; [done|]).
    split. { pose proof (polls_before_le y n (S m0) ltac:(lia)). lia. } split; [lia|].
    destruct (heard_later ff d P zone x trs Hs (S n) (S q) i s k) as (k'&Hh'&Hord'); [lia|done|]. specialize (Hord' (Hio _)).
    destruct (system_covered ff d P zone _ Hff H64 Hd HP hosts _ _ s _ i k' HS Hr Hk Hh') as [(pp&Hpp&Hpt)|Hfull]; [right|by left].
    assert (HinL : (s, i, k') ∈ L).
    { apply L2. split; [|done]. exists pp. split; [done|]. rewrite (system_zone ff d P zone _ Hff H64 Hd HP _ _ _ _ HS Hr Hpp) in Hpt. by injection Hpt. }
    assert (Hoc : occurring d (trs (S q)) L job).
    { exists s, i, k'. split; [done|]. eapply of_job_prefix; [|exact Hjob]. apply hist_prefix; [|done]. apply (trs_le ff d P zone x trs Hs). lia. }
    assert (Hcase : job ∈ jobs ∨ (name = "" ∧ Z.of_nat (length lines) = max_rows (height p))).
    { destruct (decide (job ∈ jobs)) as [|Hnot]; [by left|]. right. destruct (decide (name = "")) as [Hne|Hne]; [|destruct Hnot; by apply J4]. split; [done|].
      rewrite <- (Forall2_length _ _ _ J1). destruct (all_jobs d (trs (S q)) L) as (all&A1&A2). rewrite (J5 Hne all A1 A2).
      enough (length jobs < length all)%nat by (pose proof (J5 Hne all A1 A2); lia).
      assert (Hsub : job :: jobs ⊆+ all). { apply NoDup_submseteq; [by constructor|]. intros z Hz. apply A2. apply elem_of_cons in Hz as [-> |Hz]; [done|]. by apply J3. }
      apply submseteq_length in Hsub. cbn in Hsub. lia. }
    destruct Hcase as [Hin|Hfew]; [right|by left].
    apply elem_of_list_lookup in Hin as (u&Hu). destruct (Forall2_lookup_l _ _ _ _ _ J1 Hu) as (cells&Hcl&Hline).
    exists L, k', cells. split; [by eapply elem_of_list_lookup_2|]. done.
  Qed.
End Screen.
