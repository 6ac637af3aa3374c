(** * Lemmas stated as the StatsD property theorems, and executions *)
From Verif Require Import SStatsdLoop PStatsd PStatsd2 PStatsdLoop.

(** options used by the examples *)
Definition ex_o : opts := Opts "pre" sanitize_key false false (λ _, "0.05").
Definition ex_o0 : opts := Opts "" sanitize_key false false (λ _, "0").
Definition ex_cmds : list sop :=
  [DoCmd (CEvent "j" "e"); DoCmd (CEventErr "j" "e" None); DoFlush; DoCmd (CTiming "j b" "t" 1234567);
   DoCmd (CGauge "j" "g" (fofZ 7)); DoCmd (CComplete "j" Junk 20999999); DoFlush].

Lemma datagrams_fit o h s d : sd_run o sd0 h = Ok s → d ∈ sd_sent s → 1 ≤ zlen d ≤ 1440.
Proof.
  intros H Hd. destruct (sd_run_ok o h) as (s' & E & _ & _ & _ & HL).
  rewrite E in H. injection H as ->. exact (HL d Hd).
Qed.
Lemma never_crashes o h : ∃ s, sd_run o sd0 h = Ok s.
Proof. destruct (sd_run_ok o h) as (s & E & _). exists s. exact E. Qed.
Lemma lines_packed o h s : sd_run o sd0 h = Ok s → packed (sd_sent s) (sd_udp s) (sendable o (sop_cmds h)).
Proof. intros H. exact (proj1 (run_sent o h s H)). Qed.
Lemma flushed_all o h s :
  sd_run o sd0 (h ++ [DoFlush]) = Ok s → packed (sd_sent s) "" (sendable o (sop_cmds h)).
Proof.
  intros H. pose proof (lines_packed _ _ _ H) as HP. rewrite sop_cmds_app, app_nil_r in HP.
  rewrite sd_run_app in H. destruct (sd_run o sd0 h) as [d|]; [|done]. cbn [rbind sd_run sd_step] in H. injection H as <-.
  by rewrite flush_empty in HP.
Qed.

Lemma default_safe o h s :
  o_san o = sanitize_key → (∀ v, plain_text (o_short o v)) →
  sd_run o sd0 h = Ok s →
  ∃ groups, sd_sent s = map str_concat groups ∧
    ∀ g l, g ∈ groups → l ∈ g →
      byte_count ":" l = 1%nat ∧ byte_count "|" l = 1%nat ∧ byte_count newline l = 1%nat ∧
      ∃ name value ty, l = name +:+ ":" +:+ value +:+ "|" +:+ ty +:+ nl ∧
        Forall name_byte (bytes_of name) ∧ (ty = "c" ∨ ty = "ms" ∨ ty = "g").
Proof.
  intros Hs Hv H. destruct (lines_packed o h s H) as (groups & pending & H1 & H2 & H3).
  exists groups. split; [done|]. intros g l Hg Hl.
  assert (l ∈ sendable o (sop_cmds h)) as Hin.
  { rewrite H3, elem_of_app. left. apply elem_of_list_In, in_concat. exists g. by rewrite <-!elem_of_list_In. }
  apply elem_of_list_filter in Hin as [_ Hin].
  apply elem_of_list_In, in_concat in Hin as (ls & Hls & Hl2).
  apply in_map_iff in Hls as (c & <- & _). apply elem_of_list_In in Hl2.
  pose proof (lines_of_parts o c l Hs Hv Hl2) as Hp.
  destruct (line_parts_counts l Hp) as (? & ? & ? & _). split_and!; try done.
  destruct Hp as (name & value & ty & ? & ? & ? & ?). exists name, value, ty. done.
Qed.

Lemma nameless :
  ∃ c s, sd_run ex_o0 sd0 [DoCmd c; DoFlush] = Ok s ∧
    sd_sent s = [":1|c" +:+ nl +:+ ":1|c" +:+ nl].
Proof. exists (CEvent "" ""). eexists. split; [reflexivity|]. vm_compute. reflexivity. Qed.
Lemma counted_twice : ∃ s,
  sd_run ex_o0 sd0 [DoCmd (CEvent "" "e"); DoFlush] = Ok s ∧
  sd_sent s = ["e:1|c" +:+ nl +:+ "e:1|c" +:+ nl].
Proof. eexists. split; [reflexivity|]. vm_compute. reflexivity. Qed.

Lemma join_length (l : list string) x :
  l ≠ [] → String.length (String.concat "." (x :: l)) = (String.length x + 1 + String.length (String.concat "." l))%nat.
Proof. intros H. rewrite concat_cons_s by done. rewrite !app_length_s. simpl. lia. Qed.
Lemma names_differ o j e :
  j ≠ "" → (∀ k, k ≠ "" → o_san o k ≠ "") → metric_name o [e] ≠ metric_name o [j; e].
Proof.
  intros Hj Hs H. apply (f_equal String.length) in H. unfold metric_name in H.
  apply Hs in Hj as Hsj. destruct (o_san o j) as [|x r] eqn:E; [done|].
  rewrite !filter_cons, filter_nil in H.
  repeat case_decide; try done; cbn [map] in H;
    rewrite ?(join_length (_ :: _)) in H by done; cbn [String.concat] in H; rewrite ?E in H; simpl in H; try lia.
Qed.

Lemma names_differ_iff o j e :
  (∀ k, k ≠ "" → o_san o k ≠ "") → metric_name o [e] = metric_name o [j; e] ↔ j = "".
Proof.
  intros Hs. split.
  - intros H. destruct (decide (j = "")) as [|Hj]; [done|]. by apply (names_differ o j e Hj Hs) in H.
  - intros ->. unfold metric_name. rewrite !filter_cons. by rewrite (decide_False (P := "" ≠ "")) by (intros []; done).
Qed.
Lemma nameless_iff o parts :
  (∀ k, k ≠ "" → o_san o k ≠ "") → metric_name o parts = "" ↔ Forall (λ p, p = "") (o_prefix o :: parts).
Proof.
  intros Hs. split.
  - intros H. apply Forall_forall. intros p Hp. destruct (decide (p = "")) as [|Hne]; [done|]. exfalso. revert H. by eapply metric_name_nonempty.
  - intros H. unfold metric_name. assert (filter (λ p : string, p ≠ "") (o_prefix o :: parts) = []) as ->; [|done].
    induction H as [|p l -> _ IH]; [done|]. rewrite filter_cons. by rewrite (decide_False (P := "" ≠ "")) by (intros []; done).
Qed.

Ltac lrun := repeat (eapply Ls_cons; [econstructor; first [done|reflexivity|set_solver|idtac]|]); try apply Ls_nil.

Lemma drain_run : ∃ s1 s2 s3,
  lsteps ex_o lst0 [AEmit (CEvent "j" "e")] s1 ∧ l_wd s1 = [] ∧
  lsteps ex_o s1 [ADrainCall 1; ATake; AEmit (CEvent "j" "f"); ATake; ADrainTake; ADrainEmpty] s2 ∧
  lstep ex_o s2 (ADrainDone 1) s3 ∧
  sd_sent (l_sd s3) = ["pre.e:1|c" +:+ nl +:+ "pre.j.e:1|c" +:+ nl +:+ "pre.f:1|c" +:+ nl +:+ "pre.j.f:1|c" +:+ nl].
Proof.
  do 3 eexists. split_and!; [lrun|done|lrun|constructor; set_solver|]. vm_compute. reflexivity.
Qed.
Lemma overlap_run : ∃ s,
  lsteps ex_o lst0 [ADrainCall 1; ATake; ADrainEmpty; AEmit (CEvent "j" "e"); ADrainCall 2; ADrainDone 2] s ∧
  sd_sent (l_sd s) = [] ∧ sd_udp (l_sd s) = "" ∧ ¬ (2%nat ∈ l_wd s).
Proof. eexists. split_and!; [lrun|done|done|]. simpl. set_solver. Qed.
Lemma drain_swallowed : ∃ tr s,
  lsteps ex_o lst0 tr s ∧ accepted tr = [] ∧ 2%nat ∈ l_wd s ∧
  ∀ tr' s', lsteps ex_o s tr' s' → no_call is_drain_call tr' → 2%nat ∈ l_wd s'.
Proof.
  exists [ADrainCall 1; ADrainCall 2; ATake; ADrainTake; ADrainEmpty; ADrainDone 1]. eexists.
  split_and!; [lrun|done|simpl; set_solver|].
  intros tr' s' H Hn. eapply (swallowed_waits _ _ _ _ 2) in H; [apply H|done|done|simpl; set_solver|done].
Qed.
Lemma stop_swallowed : ∃ tr s,
  lsteps ex_o lst0 tr s ∧ accepted tr = [] ∧ 2%nat ∈ l_ws s ∧
  ∀ tr' s', lsteps ex_o s tr' s' → no_call is_stop_call tr' → 2%nat ∈ l_ws s'.
Proof.
  exists [ADrainCall 1; AStopCall 2; ATake; ADrainTake; ADrainEmpty; ADrainDone 1]. eexists.
  split_and!; [lrun|done|simpl; set_solver|].
  intros tr' s' H Hn. eapply (swallowed_stop_waits _ _ _ _ 2) in H; [apply H|done|done|simpl; set_solver|done].
Qed.
Lemma drain_after_stop : ∃ tr s,
  lsteps ex_o lst0 tr s ∧ accepted tr = [] ∧ 2%nat ∈ l_wd s ∧
  ∀ tr' s', lsteps ex_o s tr' s' → 2%nat ∈ l_wd s'.
Proof.
  exists [AStopCall 1; ADrainCall 2; ATake; AStopDone 1]. eexists.
  split_and!; [lrun|done|simpl; set_solver|].
  intros tr' s' H. eapply (stopped_waits _ _ _ _ 2) in H; [done|done|simpl; set_solver].
Qed.
Lemma drain_pending : ∃ s1 s2,
  lsteps ex_o lst0 [AEmit (CEvent "j" "e"); ATick] s1 ∧ l_wd s1 = [] ∧
  lsteps ex_o s1 [ADrainCall 1; AEmit (CEvent "j" "f")] s2 ∧ 1%nat ∈ l_wd s2.
Proof. do 2 eexists. split_and!; [lrun|done|lrun|simpl; set_solver]. Qed.
Lemma stop_loses : ∃ s,
  lsteps ex_o lst0 [AEmit (CEvent "j" "e"); AStopCall 1; ATake; ATake; AStopDone 1] s ∧
  sd_sent (l_sd s) = [] ∧
  ∀ tr' s', lsteps ex_o s tr' s' → sd_sent (l_sd s') = [].
Proof.
  eexists. split_and!; [lrun|done|]. intros tr' s' H. apply ldone_stays in H as [_ ->]; done.
Qed.
Lemma stop_run : ∃ s1 s2 s3,
  lsteps ex_o lst0 [AEmit (CEvent "j" "e")] s1 ∧ l_ws s1 = [] ∧
  lsteps ex_o s1 [AStopCall 1; ATake; ATake] s2 ∧ lstep ex_o s2 (AStopDone 1) s3.
Proof. do 3 eexists. split_and!; [lrun|done|lrun|]. constructor. set_solver. Qed.

Lemma fill o n : ∀ s, l_loop s = LDone → Z.of_nat (length (l_q s)) + Z.of_nat n ≤ cmdChanBuffSize →
  ∃ s', lsteps o s (repeat (AEmit (CEvent "j" "e")) n) s' ∧ l_loop s' = LDone ∧ l_wd s' = l_wd s ∧ l_ws s' = l_ws s ∧
    length (l_q s') = (length (l_q s) + n)%nat.
Proof.
  induction n as [|n IH]; intros s Hl Hn.
  - exists s. split_and!; [constructor|done..|lia].
  - destruct (IH (set_q s (l_q s ++ [SMetric (CEvent "j" "e")]))) as (s' & H1 & H2 & H3 & H4 & H5).
    + done.
    + simpl. rewrite app_length. simpl. lia.
    + exists s'. split_and!; try done.
      * simpl. eapply Ls_cons; [|exact H1]. constructor. unfold room. lia.
      * rewrite H5. simpl. rewrite app_length. simpl. lia.
Qed.
Lemma emit_blocks : ∃ tr s,
  lsteps ex_o lst0 tr s ∧ l_loop s = LDone ∧
  ∀ tr' s', lsteps ex_o s tr' s' → tr' = [].
Proof.
  assert (∃ s0, lsteps ex_o lst0 [AStopCall 1; ATake; AStopDone 1] s0 ∧ l_loop s0 = LDone ∧ l_q s0 = [] ∧ l_wd s0 = [] ∧ l_ws s0 = [])
    as (s0 & H0 & Hl & Hq & Hw & Hs).
  { eexists. split_and!; [lrun|done..]. }
  destruct (fill ex_o (Z.to_nat cmdChanBuffSize) s0 Hl) as (s & H1 & H2 & H3 & H4 & H5).
  { rewrite Hq. rewrite Z2Nat.id by done. simpl length. lia. }
  eexists _, s. split_and!; [apply lsteps_app; eauto|done|].
  intros tr' s' H. inversion H as [|? a m ? ? HA HB]; subst; [done|]. exfalso.
  assert (¬ room s) as Hroom. { unfold room. rewrite H5, Hq. cbn [length Nat.add]. rewrite Z2Nat.id by done. lia. }
  clear -H2 HA Hroom H3 H4 Hw Hs. inversion HA; subst; simpl in *; try done.
Qed.

Lemma queue_served o tr s :
  lsteps o lst0 tr s → no_call is_stop_call tr →
  ∃ tr' s', Forall internal tr' ∧ lsteps o s tr' s' ∧ l_q s' = [] ∧ room s'.
Proof.
  intros H Hn.
  destruct (no_stop_inv o tr _ _ H Hn) as [HS HB]; [done..|].
  pose proof (linv_reach _ _ _ H) as HI. clear H Hn.
  remember (measure s) as n eqn:Em. revert tr s HS HB HI Em.
  induction (lt_wf n) as [n _ IH]; intros tr s HS HB HI Em.
  destruct (l_q s) as [|c q] eqn:Eq.
  { exists [], s. split_and!; [done|constructor|done|]. unfold room. rewrite Eq. done. }
  assert (∃ a s', internal a ∧ lstep o s a s') as (a & s' & Ha & St).
  { destruct HI as [(h & Hr & _) _ _ Hd _ _]. destruct s as [q0 l d wd ws]; simpl in *. subst q0. destruct l; try done.
    - destruct c as [c| | |].
      + destruct (process_total o h d (SMetric c) Hr) as (d' & E). eexists ATake, _; split; [done|]. by constructor.
      + eexists ATake, _; split; [done|]. constructor.
      + eexists ATake, _; split; [done|]. constructor.
      + rewrite cnt_cons in HS. simpl in HS. lia.
    - destruct (process_total o h d c Hr) as (d' & E). eexists ADrainTake, _; split; [done|]. by constructor.
    - destruct wd as [|i wd]; simpl in *; [lia|]. eexists (ADrainDone i), _; split; [done|]. constructor. by left. }
  destruct (no_stop_inv o [a] s s') as [HS' HB'].
  { by apply lsteps_one. } { constructor; [by destruct a|constructor]. } { by rewrite Eq. } { done. }
  destruct (IH (measure s')) with (tr := tr ++ [a]) (s := s') as (tr' & s2 & H1 & H2 & H3 & H4); try done.
  { subst n. by eapply internal_decreases. }
  { by eapply linv_step. }
  exists (a :: tr'), s2. split_and!; try done. { by constructor. } by eapply Ls_cons.
Qed.
