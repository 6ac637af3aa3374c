(** * What was taken is shown (C116) *)
From Verif Require Import SLive4 PFair PHealthd PHealthd2 PHealthd4 PHealthdLoop PHealthdLoop2 PSystem PLiveHealthd.

Section Run.
  Context (ff : f64 → string) (d : Z) (P : nat → proc) (zone : N) (hosts : list string) (x : exec hl (Z * hact)) (trs : nat → list sev).
  Context (Hff : float_codec ff) (H64 : in_int64 d) (Hd : 0 < d).
  Context (Hx : healthd_exec hosts x) (Hf : healthd_fair x) (Ht : time_passes x) (Hn : never (is_act is_stop) x).
  Context (Hs : system_exec ff d P zone x trs).

  Lemma trs_le n m : (n ≤ m)%nat → trs n `prefix_of` trs m.
  Proof using Hs. induction 1 as [|m _ IH]; [done|]. etrans; [exact IH|]. apply (se_grows _ _ _ _ _ _ Hs). Qed.
  Local Lemma reach n : hlsteps (hl_init hosts) (acts x n) (x_at x n).
  Proof using Hx.
    induction n as [|n IH]; [rewrite (he_start _ _ Hx); constructor|]. rewrite acts_S.
    destruct (next _ x n (he_exec _ _ Hx)) as [[-> ->]|(a&->&Hst)]; [by rewrite app_nil_r|]. apply hlsteps_snoc. eauto.
  Qed.
  Local Lemma hran n : hrun (hd_init hosts) (ops (acts x n)) (Ok (l_hd (x_at x n))).
  Proof using Hx. apply loop_ops; [apply reach|apply (he_crash _ _ Hx)]. Qed.

  (** an answer taken had been given *)
  Lemma recv_given tr ops i k : sys ff d P zone tr ops → SRecv i k ∈ tr → (k < length (hist i tr))%nat.
  Proof using.
    induction 1 as [|tr ops j t o HS IH|tr ops j k' t out msg code body loc nanos y part w s ts stack w' r t1 t2 HS IH Hk|tr ops r t1 t2 HS IH|tr ops now HS IH|tr ops o HS IH];
      intros Hin; [by apply elem_of_nil in Hin|..]; rewrite hist_app, app_length; apply elem_of_app in Hin as [Hin|Hin%elem_of_list_singleton]; try (specialize (IH Hin); lia); try discriminate.
    injection Hin as -> ->. apply lookup_lt_Some in Hk. lia.
  Qed.
  Lemma last_heard TR i s : ∀ tr, (∃ k, SRecv i k ∈ tr ∧ lists d P TR i k s) → ∃ k, heard1 d P TR tr i s k.
  Proof using.
    induction tr as [|e tr IH] using rev_ind; [intros (k&Hin&_); by apply elem_of_nil in Hin|].
    intros (k&Hin&Hl).
    assert (Hdec : Decision (match e with SRecv j k' => j = i ∧ lists d P TR i k' s | _ => False end)) by (unfold lists; destruct e; apply _).
    destruct Hdec as [He|Hno].
    - destruct e as [|j k'| | |]; try done. destruct He as [-> He]. exists k'. apply heard_snoc. by right.
    - destruct IH as (k2&Hk).
      + exists k. split; [|done]. apply elem_of_app in Hin as [|Hin%elem_of_list_singleton]; [done|]. subst e. by destruct Hno.
      + exists k2. apply heard_snoc. left. split; [done|]. intros k' -> Hl'. by destruct Hno.
  Qed.
  Lemma heard_later n m i s k : (n ≤ m)%nat → heard d P (trs n) i s k →
    ∃ k', heard d P (trs m) i s k' ∧ (in_order (trs m) → (k ≤ k')%nat).
  Proof using Hs.
    intros Hle (tr1&tr2&E&Hl&_). destruct (trs_le n m Hle) as (tr3&E3).
    assert (Hin : SRecv i k ∈ trs n) by (rewrite E; apply elem_of_app; right; left).
    pose proof (recv_given _ _ _ _ (se_sys _ _ _ _ _ _ Hs n) Hin) as Hk.
    assert (Hl' : lists d P (trs m) i k s).
    { unfold lists. rewrite E3, hist_app, take_app_le by lia. exact Hl. }
    assert (Hin' : SRecv i k ∈ trs m) by (rewrite E3; apply elem_of_app; by left).
    destruct (last_heard (trs m) i s (trs m)) as (k'&Hh); [by exists k|]. exists k'. split; [exact Hh|]. intros Ho.
    destruct Hh as (u1&u2&Eu&_&Hu). rewrite Eu in Hin'. apply elem_of_app in Hin' as [Hin'|Hin'].
    - apply elem_of_list_split in Hin' as (v1&v2&->). eapply (Ho i v1 k (v2 ++ SRecv i k' :: u2)).
      + by rewrite Eu, <- app_assoc.
      + apply elem_of_app. right. left.
    - apply elem_of_cons in Hin' as [[= ->]|Hin']; [done|]. by destruct (Hu k).
  Qed.

  (** only a recalculation changes what is published *)
  Lemma since_recalc m t o : x_act x m = Some (t, HFire o) → ∀ m', (m < m')%nat →
    ∃ r o', (m ≤ r < m')%nat ∧ ops (acts x (S r)) = ops (acts x r) ++ [HRecalc o'] ∧ hd_pub (l_hd (x_at x m')) = hd_pub (l_hd (x_at x (S r))).
  Proof using Hff H64 Hd Hx Hs.
    intros Ha m' Hle. induction m' as [|m' IH]; [lia|].
    destruct (decide (m' = m)) as [->|Hne].
    { exists m, o. split; [lia|]. split; [|done]. rewrite acts_S, Ha. unfold ops. by rewrite omap_app. }
    destruct IH as (r&o'&Hr&Er&Ep); [lia|].
    assert (Hkeep : hd_pub (l_hd (x_at x (S m'))) = hd_pub (l_hd (x_at x m')) ∨ ∃ o2, ops (acts x (S m')) = ops (acts x m') ++ [HRecalc o2]).
    { pose proof (pub_reach _ _ _ (hran m') (λ y, sys_pos ff d P zone (trs m') Hff H64 Hd (se_ok _ _ _ _ _ _ Hs m') _ y (se_sys _ _ _ _ _ _ Hs m'))) as Hpi.
      pose proof (he_crash _ _ Hx (S m')) as Hc. rewrite acts_S. destruct (next _ x m' (he_exec _ _ Hx)) as [[_ ->]|([t' a]&->&St)]; [by left|].
      unfold ops. rewrite omap_app. revert St Hc. generalize (x_at x (S m')). intros s' St Hc.
      inversion St; subst; try (by left); try (right; by eexists).
      - left. unfold after in *. destruct (purge _ _) eqn:Ep'; [|done]. cbn. apply purge_host in Ep' as (_&_&_&_&_&Htr). apply truncate_short in Htr; [done|apply Hpi].
      - left. unfold after in *. destruct (consume _ _ _ _) eqn:Ep'; [|done]. cbn. unfold consume in Ep'. repeat case_match; simplify_eq; try done; by destruct (consume_aggs _ _ _ _ _) in Ep'; cbn in Ep'; simplify_eq. }
    destruct Hkeep as [Hk|(o2&Hk)].
    - exists r, o'. split; [lia|]. split; [done|]. by rewrite Hk.
    - exists m', o2. split; [lia|done].
  Qed.

  Lemma system_shows n t k0 r t1 t2 i s k : x_act x n = Some (t, HTakeResp k0 r t1 t2) → heard d P (trs (S n)) i s k →
    ∃ m, (n < m)%nat ∧ ∀ m' t' j l, (m < m')%nat → x_act x m' = Some (t', HRet j (AnsI l)) → kept d s (trs m') →
      (∃ n' k', (n < n' ≤ m')%nat ∧ shows d P zone (trs n') s l ∧ heard d P (trs n') i s k' ∧ (in_order (trs n') → (k ≤ k')%nat)) ∨ full d s l.
  Proof using All.
    intros Ha Hh. destruct (healthd_recalc hosts x Hx Hf Hn n t k0 r t1 t2 Ht Ha) as (m&t'&o&Hm&Hfire). exists m. split; [done|].
    intros m' t'' j l Hm' Hret Hkept. destruct (since_recalc m t' o Hfire m' Hm') as (q&o'&Hq&Eo&Ep).
    assert (El : l = hd_pub (l_hd (x_at x m'))).
    { pose proof (reply_inv _ _ _ (reach m')) as Hr. destruct (next _ x m' (he_exec _ _ Hx)) as [[E _]|([u a]&E&St)]; [congruence|].
      rewrite Hret in E. injection E as <- <-. revert St. generalize (x_at x (S m')). intros s' St. unfold reply_ok in Hr. inversion St; subst.
      match goal with H : l_loop _ = _ |- _ => by rewrite H in Hr end. }
    rewrite Ep in El. subst l. pose proof (hran (S q)) as Hr. pose proof (se_sys _ _ _ _ _ _ Hs (S q)) as HS. rewrite Eo in Hr, HS.
    assert (HP := se_ok _ _ _ _ _ _ Hs (S q)).
    assert (Hk : kept d s (trs (S q))).
    { intros now key Hin. apply Hkept. destruct (trs_le (S q) m') as (z&->); [lia|]. apply elem_of_app. by left. }
    destruct (heard_later (S n) (S q) i s k) as (k'&Hh'&Hord); [lia|done|].
    destruct (system_covered ff d P zone _ Hff H64 Hd HP hosts _ _ s _ i k' HS Hr Hk Hh') as [(p&Hp&Hpt)|Hfull]; [left|by right].
    exists (S q), k'. split; [lia|]. split; [|done].
    destruct (system_published ff d P zone _ Hff H64 Hd HP hosts _ _ s _ p HS Hr Hk Hp Hpt) as (L&L1&L2&L3). by exists p, L.
  Qed.
  (** an answer in the queue is taken *)
  Lemma push_taken n t k r : x_act x n = Some (t, HPush k r) → ∃ m t' t1 t2, (n < m)%nat ∧ x_act x m = Some (t', HTakeResp k r t1 t2).
  Proof using Hx Hf Hn.
    intros Ha. destruct (healthd_received hosts x Hx Hf Hn (S n)) as (m&Hm&Hpre).
    set (j := length (pushed (acts x n))).
    assert (Hj : received (acts x m) !! j = Some (k, Some r)).
    { destruct Hpre as (z&->). apply lookup_app_l_Some. rewrite acts_S, Ha. unfold pushed at 1. rewrite omap_app. by apply list_lookup_middle. }
    assert (Hl : (length (received (acts x n)) ≤ j)%nat).
    { unfold j. rewrite (PLiveHealthd.resp_fifo hosts x Hx Hf Hn), app_length. lia. }
    clear Hpre Hm. induction m as [|m IH]; [done|]. destruct (decide (j < length (received (acts x m)))%nat) as [Hlt|Hge].
    { apply IH. rewrite acts_S in Hj. unfold received in Hj. rewrite omap_app, lookup_app_l in Hj by done. done. }
    assert (Hnm : (n ≤ m)%nat).
    { destruct (decide (n ≤ m)%nat) as [|Hnot]; [done|]. exfalso. apply lookup_lt_Some in Hj.
      pose proof (prefix_length _ _ (PLiveHealthd.received_le x (S m) n ltac:(lia))). lia. }
    rewrite acts_S in Hj. unfold received in Hj. rewrite omap_app, lookup_app_r in Hj by (unfold received in Hge; lia).
    destruct (x_act x m) as [[t' a]|] eqn:E; [|done]. cbn in Hj.
    destruct a; cbn in Hj; try done; (destruct (j - _)%nat; [|done]; cbn in Hj; simplify_eq).
    exists m, t', t1, t2. split; [|done]. destruct (decide (m = n)) as [->|]; [congruence|lia].
  Qed.
End Run.

Lemma system_goes_on ff d P zone hosts x trs : float_codec ff → in_int64 d → 0 < d → is_exec hlstep x → x_at x 0%nat = hl_init hosts →
  system_exec ff d P zone x trs → ∀ n, l_loop (x_at x n) ≠ ACrash.
Proof.
  intros Hff H64 Hd Hx H0 Hs n Hc. assert (H : hlsteps (hl_init hosts) (acts x n) (x_at x n)).
  { clear Hc. induction n as [|n IH]; [rewrite H0; constructor|]. rewrite acts_S.
    destruct (next _ x n Hx) as [[-> ->]|(a&->&Hst)]; [by rewrite app_nil_r|]. apply hlsteps_snoc. eauto. }
  destruct (loop_crash _ _ _ H Hc) as (why&Hw).
  exact (system_safe ff d P zone _ Hff H64 Hd (se_ok _ _ _ _ _ _ Hs n) hosts _ why (se_sys _ _ _ _ _ _ Hs n) Hw).
Qed.
