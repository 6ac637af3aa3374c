(** * Totals, and what a stopped sink does to the others *)
From Verif Require Export SServer PProcess2 SConserve.
From Verif Require Import PPolling PStatsdLoop PStatsdEx PServer2 PConserve.

(** ** Totals *)
Lemma counts_perm o name a b : a ≡ₚ b → counts o name a = counts o name b.
Proof. intros P. unfold counts. f_equal. apply Permutation_length. by rewrite P. Qed.
Lemma all_returned_app progs ks tr1 tr2 s : qsteps (proc0 progs ks) (tr1 ++ tr2) s → all_returned progs tr1 → all_returned progs (tr1 ++ tr2).
Proof.
  intros H Hr g prog Hg. destruct (ci_call _ _ _ _ (cinv_run _ _ _ _ H) g prog Hg) as (at_ & dn & rest & _ & E & E2 & _).
  specialize (Hr g prog Hg). rewrite E2. assert (returned tr1 g ≤ returned (tr1 ++ tr2) g)%nat.
  { unfold returned. rewrite omap_app, app_length. lia. }
  subst prog. rewrite app_length in *. lia.
Qed.
Lemma all_fit_perm o a b : a ≡ₚ b → all_fit o a → all_fit o b.
Proof. intros P. unfold all_fit. by rewrite P. Qed.

Lemma no_drain_part k tr : no_drain_at k tr → no_call is_drain_call (statsd_part k tr).
Proof.
  induction 1 as [|a tr Ha _ IH]; [constructor|]. unfold statsd_part. destruct a as [g k' c e|g|k' a|k' a|k' a|k' a]; cbn; try exact IH.
  - case_decide; [constructor; [done|exact IH]|exact IH].
  - case_decide; [constructor; [by destruct a|exact IH]|exact IH].
Qed.
Lemma thm_statsd_total progs ks k o tr1 s1 l1 i tr2 s3 l3 name : clean o → all_fit o (concat (map (tells_sink k) progs)) →
  ks !! k = Some (KStatsd o lst0) →
  qsteps (proc0 progs ks) tr1 s1 → all_returned progs tr1 → q_sinks s1 !! k = Some (KStatsd o l1) → l_wd l1 = [] →
  qsteps s1 (QStatsd k (ADrainCall i) :: tr2 ++ [QStatsd k (ADrainDone i)]) s3 → no_drain_at k tr2 →
  q_sinks s3 !! k = Some (KStatsd o l3) →
  counter name (sd_sent (l_sd l3)) = counts o name (concat (map (tells_sink k) progs)).
Proof.
  intros Hc Hf Hk H1 Hr Hl1 Hwd H2 Hn Hl3.
  assert (Lk : (k < length ks)%nat) by (by eapply lookup_lt_Some).
  assert (H12 : qsteps (proc0 progs ks) (tr1 ++ (QStatsd k (ADrainCall i) :: tr2 ++ [QStatsd k (ADrainDone i)])) s3) by (apply qsteps_app; eauto).
  pose proof (thm_told_all _ _ _ _ H1 Hr k Lk) as P1.
  pose proof (thm_told_all _ _ _ _ H12 (all_returned_app _ _ _ _ _ H12 Hr) k Lk) as P2.
  destruct (proj1 (proj2 (thm_sink_parts _ _ _ _ H1 k)) o Hk) as (l1' & E1 & S1 & A1). rewrite Hl1 in E1. injection E1 as <-.
  destruct (proj2 (sinks_run _ _ _ H2) k _ Hl1) as (y & Ey & Hst). rewrite Hl3 in Ey. injection Ey as <-. destruct Hst as [_ Hst].
  pose proof (qsteps_tame _ _ _ H12) as Ht.
  pose proof (statsd_part_told k _ Ht) as A2. rewrite statsd_part_app in A2.
  change (QStatsd k (ADrainCall i) :: tr2 ++ [QStatsd k (ADrainDone i)]) with ([QStatsd k (ADrainCall i)] ++ tr2 ++ [QStatsd k (ADrainDone i)]) in Hst, A2.
  rewrite !statsd_part_app in Hst, A2. unfold statsd_part at 1 3 in Hst. cbn in Hst. rewrite !decide_True in Hst by done. cbn [app] in Hst.
  change (ADrainCall i :: statsd_part k tr2 ++ [ADrainDone i]) with ((ADrainCall i :: statsd_part k tr2) ++ [ADrainDone i]) in Hst.
  apply lsteps_app in Hst as (l2 & S2 & S3). apply lsteps_one in S3.
  assert (A3 : accepted (statsd_part k tr1 ++ statsd_part k tr2) ≡ₚ concat (map (tells_sink k) progs)).
  { rewrite <- P2. change (QStatsd k (ADrainCall i) :: tr2 ++ [QStatsd k (ADrainDone i)]) with ([QStatsd k (ADrainCall i)] ++ tr2 ++ [QStatsd k (ADrainDone i)]).
    rewrite <- A2. unfold accepted. rewrite !omap_app. unfold statsd_part at 4 6. cbn. rewrite !decide_True by done. cbn. by rewrite app_nil_r. }
  destruct (thm_server_drain o (statsd_part k tr1) i (statsd_part k tr2) l1 l2 l3 name) as [B1 B2]; try done.
  { by eapply all_fit_perm. }
  { by apply no_drain_part. }
  rewrite (counts_perm _ _ _ _ A3) in B2. rewrite A1, (counts_perm _ _ _ _ P1) in B1. lia.
Qed.

Lemma hist_processed tr : hist_cmds (poll_history tr) = poll_processed tr.
Proof.
  unfold hist_cmds, poll_history, poll_processed. induction tr as [|a tr IH]; [done|]. destruct a; cbn; try exact IH. by f_equal.
Qed.
Lemma poll_history_app a b : poll_history (a ++ b) = poll_history a ++ poll_history b.
Proof. apply omap_app. Qed.
Lemma poll_processed_app a b : poll_processed (a ++ b) = poll_processed a ++ poll_processed b.
Proof. apply omap_app. Qed.
Lemma thm_poll_total progs ks k d retain tr1 s1 p1 i out tr2 s2 e : 0 < d → d ≤ retain →
  ks !! k = Some (KPoll (pst0 d retain)) →
  qsteps (proc0 progs ks) tr1 s1 → all_returned progs tr1 → q_sinks s1 !! k = Some (KPoll p1) → p_q p1 = [] →
  qsteps s1 (QPoll k (PReadCall i) :: tr2 ++ [QPoll k (PReadRet i out)]) s2 →
  let h := poll_history (poll_part k (tr1 ++ QPoll k (PReadCall i) :: tr2)) in
  clock_monotone h → (∀ u o t o', (u, o) ∈ h → (t, o') ∈ h → slot d t - slot d u < d * (retain `div` d)) →
  event_total e out = i64 (length (events_of e (concat (map (tells_sink k) progs)))).
Proof.
  intros Hd Hr Hk H1 Hret Hp1 Hq H2 h Hmono Hrec.
  assert (Lk : (k < length ks)%nat) by (by eapply lookup_lt_Some).
  change (QPoll k (PReadCall i) :: tr2 ++ [QPoll k (PReadRet i out)]) with ((QPoll k (PReadCall i) :: tr2) ++ [QPoll k (PReadRet i out)]) in H2.
  apply qsteps_app in H2 as (m & H2 & H3).
  assert (H12 : qsteps (proc0 progs ks) (tr1 ++ (QPoll k (PReadCall i) :: tr2)) m) by (apply qsteps_app; eauto).
  pose proof (thm_told_all _ _ _ _ H1 Hret k Lk) as P1.
  pose proof (thm_told_all _ _ _ _ H12 (all_returned_app _ _ _ _ _ H12 Hret) k Lk) as P2.
  destruct (proj1 (thm_sink_parts _ _ _ _ H1 k) d retain Hk) as (p1' & E1 & S1 & A1). rewrite Hp1 in E1. injection E1 as <-.
  destruct (proj1 (thm_sink_parts _ _ _ _ H12 k) d retain Hk) as (pm & Em & Sm & Am).
  destruct (proj2 (sinks_run _ _ _ H3) k _ Em) as (y & Ey & Hst). destruct y as [p2| | | |]; try done. cbn [ksteps] in Hst.
  unfold poll_part in Hst. cbn in Hst. rewrite decide_True in Hst by done.
  assert (S2 : psteps (pst0 d retain) (poll_part k (tr1 ++ QPoll k (PReadCall i) :: tr2) ++ [PReadRet i out]) p2) by (apply psteps_app; eauto).
  destruct (read_sees _ _ _ _ _ _ S2) as (t1 & t & t2 & Et & Eh & Eg & _).
  assert (Hh : h = poll_history t1 ++ [(t, OpRead)]). { unfold h. rewrite Et, poll_history_app. f_equal.
    change (PReadTake i t :: t2) with ([PReadTake i t] ++ t2). rewrite poll_history_app, Eh. done. }
  rewrite (thm_event_total d retain (poll_history t1) t out e Hd Hr); [|by rewrite <- Hh|done|].
  - unfold i64. do 2 f_equal. apply Permutation_length. rewrite hist_processed.
    assert (Ep : poll_processed t1 = poll_processed (poll_part k (tr1 ++ QPoll k (PReadCall i) :: tr2))).
    { rewrite <- (hist_processed (poll_part _ _)). fold h. rewrite Hh. unfold hist_cmds. rewrite omap_app. cbn. rewrite app_nil_r.
      change (omap _ (poll_history t1)) with (hist_cmds (poll_history t1)). by rewrite hist_processed. }
    rewrite Ep.
    destruct (poll_fifo _ _ _ _ S1) as (F1 & _). destruct (poll_fifo _ _ _ _ Sm) as (F2 & _). rewrite Hq, app_nil_r in F1.
    assert (Hle : (length (poll_processed (poll_part k tr1)) ≤ length (poll_processed (poll_part k (tr1 ++ QPoll k (PReadCall i) :: tr2))))%nat).
    { rewrite poll_part_app, poll_processed_app, app_length. lia. }
    apply Permutation_length in P1 as L1. pose proof (Permutation_length P2) as L2. rewrite <- A1, F1 in L1. rewrite <- Am, F2, app_length in L2.
    assert (p_q pm = []) as Hnil by (destruct (p_q pm); [done|cbn in L2; lia]). rewrite Hnil, app_nil_r in F2.
    rewrite <- F2, Am. unfold events_of. by rewrite P2.
  - intros u o Hu. eapply (Hrec u o t OpRead); rewrite Hh; set_solver.
Qed.

(** ** A stopped sink *)
Definition one_call : scall := SCall (λ _, CEvent "j" "e") (λ _, None).
Lemma stuck_process : ∃ tr s l, let n := S (Z.to_nat cmdChanBuffSize) in
  qsteps (proc0 [repeat one_call n] [KStatsd ex_o lst0; KOther []]) tr s ∧
  q_sinks s !! 0%nat = Some (KStatsd ex_o l) ∧ l_loop l = LDone ∧
  (∀ tr' s', qsteps s tr' s' → tr' = []) ∧
  length (told tr 1) = Z.to_nat cmdChanBuffSize ∧ returned tr 0 = Z.to_nat cmdChanBuffSize.
Proof.
  assert (∃ l0, lsteps ex_o lst0 [AStopCall 1; ATake; AStopDone 1] l0 ∧ l_loop l0 = LDone ∧ l_q l0 = [] ∧ l_wd l0 = [] ∧ l_ws l0 = [])
    as (l0 & H0 & Hl & Hq & Hw & Hs).
  { eexists. split_and!; [lrun|done..]. }
  set (N := Z.to_nat cmdChanBuffSize).
  assert (G : ∀ m l got, l_loop l = LDone → l_wd l = [] → l_ws l = [] → Z.of_nat (length (l_q l)) + Z.of_nat m ≤ cmdChanBuffSize →
    ∃ tr l' got', qsteps (Proc [Caller 0 (repeat one_call (S m))] [KStatsd ex_o l; KOther got]) tr
       (Proc [Caller 0 [one_call]] [KStatsd ex_o l'; KOther got']) ∧
      l_loop l' = LDone ∧ l_wd l' = [] ∧ l_ws l' = [] ∧ length (l_q l') = (length (l_q l) + m)%nat ∧ length (told tr 1) = m ∧ returned tr 0 = m).
  { induction m as [|m IH]; intros l got A B C D.
    - exists [], l, got. split; [constructor|]. split; [done|]. split; [done|]. split; [done|]. split; [lia|]. done.
    - set (l1 := set_q l (l_q l ++ [SMetric (CEvent "j" "e")])).
      destruct (IH l1 (got ++ [CEvent "j" "e"])) as (tr & l' & got' & Q1 & Q2 & Q3 & Q4 & Q5 & Q6 & Q7); try done.
      { cbn. rewrite app_length. cbn. lia. }
      exists (QEmit 0 0 (CEvent "j" "e") None :: QEmit 0 1 (CEvent "j" "e") None :: QNext 0 :: tr), l', got'.
      split.
      + change (repeat one_call (S (S m))) with (one_call :: repeat one_call (S m)).
        change (CEvent "j" "e") with (one_call 0%nat) at 1. econstructor.
        { eapply Qs_emit; [repeat constructor|reflexivity|reflexivity|]. constructor. constructor. unfold room. lia. }
        change (CEvent "j" "e") with (one_call 1%nat) at 1. econstructor.
        { eapply Qs_emit; [repeat constructor|reflexivity|reflexivity|]. constructor. }
        econstructor. { eapply Qs_next; [repeat constructor|reflexivity]. }
        exact Q1.
      + split; [done|]. split; [done|]. split; [done|]. split; [rewrite Q5; cbn; rewrite app_length; cbn; lia|].
        split; [transitivity (S (length (told tr 1))); [reflexivity|by rewrite Q6]|transitivity (S (returned tr 0)); [reflexivity|by rewrite Q7]]. }
  destruct (G N l0 []) as (tr & l & got & Q1 & Q2 & Q3 & Q4 & Q5 & Q6 & Q7); try done.
  { rewrite Hq. unfold N. rewrite Z2Nat.id by done. simpl length. lia. }
  exists (map (QStatsd 0) [AStopCall 1; ATake; AStopDone 1] ++ tr), (Proc [Caller 0 [one_call]] [KStatsd ex_o l; KOther got]), l.
  cbn zeta. split; [|split; [done|split; [done|split; [|split]]]].
  - apply qsteps_app. eexists. split; [|exact Q1].
    pose proof (lift_statsd [Caller 0 (repeat one_call (S N))] 0 ex_o [AStopCall 1; ATake; AStopDone 1] [KStatsd ex_o lst0; KOther []] lst0 l0) as Li.
    apply Li; [repeat constructor|done|repeat constructor|exact H0].
  - intros tr' s' H. inversion H as [|? a m ? ? HA HB]; subst; [done|]. exfalso.
    assert (Hroom : ¬ room l). { unfold room. rewrite Q5, Hq. cbn [length Nat.add]. unfold N. rewrite Z2Nat.id by done. lia. }
    clear -HA Q2 Q3 Q4 Hroom.
    inversion HA as [cs sk g at_ c rest x x' Ha Hg Hk Ht|cs sk g c rest Ha Hg|cs sk k b p p' Ha Hk Hn Hp|cs sk k b o l' l'' Ha Hk Hn Hp|cs sk k b lc l' l'' Ha Hk Hn Hp|cs sk k b l' l'' Ha Hk Hn Hp]; subst.
    + destruct g as [|[]]; cbn in Hg; try done. injection Hg as <- <- <-. cbn in Hk. injection Hk as <-. inversion Ht as [|? ? ? ? ? Hl| | | |]; subst. inversion Hl; subst; cbn in *; done.
    + destruct g as [|[]]; cbn in Hg; done.
    + destruct k as [|[|[]]]; cbn in Hk; done.
    + destruct k as [|[|[]]]; cbn in Hk; try done. injection Hk as <- <-. inversion Hp; subst; cbn in *; try done.
    + destruct k as [|[|[]]]; cbn in Hk; done.
    + destruct k as [|[|[]]]; cbn in Hk; done.
  - unfold told, heard in *. rewrite map_length in *. rewrite omap_app, app_length. cbn. done.
  - unfold returned in *. rewrite omap_app, app_length. cbn. done.
Qed.

(** ** Sinks need not agree on the order *)
Definition call_of (e : string) : scall := SCall (λ _, CEvent "j" e) (λ _, None).
Lemma orders_differ : ∃ tr s,
  qsteps (proc0 [[call_of "a"]; [call_of "b"]] [KOther []; KOther []]) tr s ∧ all_returned [[call_of "a"]; [call_of "b"]] tr ∧
  told tr 0 = [CEvent "j" "a"; CEvent "j" "b"] ∧ told tr 1 = [CEvent "j" "b"; CEvent "j" "a"].
Proof.
  exists [QEmit 0 0 (call_of "a" 0%nat) None; QEmit 1 0 (call_of "b" 0%nat) None; QEmit 1 1 (call_of "b" 1%nat) None; QEmit 0 1 (call_of "a" 1%nat) None; QNext 0; QNext 1].
  eexists. split; [|split; [|done]].
  - unfold proc0. cbn [map].
    econstructor; [eapply (Qs_emit _ _ 0 0 (call_of "a") []); [repeat constructor|reflexivity|reflexivity|constructor]|]. cbn.
    econstructor; [eapply (Qs_emit _ _ 1 0 (call_of "b") []); [repeat constructor|reflexivity|reflexivity|constructor]|]. cbn.
    econstructor; [eapply (Qs_emit _ _ 1 1 (call_of "b") []); [repeat constructor|reflexivity|reflexivity|constructor]|]. cbn.
    econstructor; [eapply (Qs_emit _ _ 0 1 (call_of "a") []); [repeat constructor|reflexivity|reflexivity|constructor]|]. cbn.
    econstructor; [eapply Qs_next; [repeat constructor|reflexivity]|]. cbn.
    econstructor; [eapply Qs_next; [repeat constructor|reflexivity]|]. constructor.
  - intros [|[|]] prog Hg; cbn in Hg; simplify_eq; done.
Qed.
