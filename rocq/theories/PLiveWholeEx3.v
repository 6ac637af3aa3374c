(** * The whole way: a goroutine's call, the answers of its process, healthd and healthtop (C131) *)
From Verif Require Import PFair PHealthd PHealthdEx PApi PApiEx PContent PContent2 PAgg PAgg2 PNum2 PWire PWire2 PWireEx PHealthEx PSystem PSystemEx PSystemEx2 PLiveSystemEx PTopTable PLiveTop PLiveScreenEx SLive10.
From Verif Require Import PLiveWholeEx1 PLiveWholeEx2.

(** the aggregator *)
Definition u_a0 : aggr := match new_aggregator minute (60 * minute) with Ok a => a | Crash _ => Aggr 0 0 0 [] end.
Definition u_a1 : aggr := match agg_step u_a0 clock (OpCmd u_cmd) with Ok (a, _) => a | Crash _ => u_a0 end.
Lemma u_new : new_aggregator minute (60 * minute) = Ok u_a0.
Proof. vm_compute. reflexivity. Qed.
Lemma u_emit : agg_step u_a0 clock (OpCmd u_cmd) = Ok (u_a1, None).
Proof. unfold u_a1. destruct (agg_step u_a0 clock (OpCmd u_cmd)) as [[a x]|] eqn:E; [|by vm_compute in E]. f_equal. f_equal. clear -E. unfold agg_step in E. destruct (get_interval u_a0 clock); cbn in E; congruence. Qed.
Lemma u_read : agg_step u_a1 clock OpRead = Ok (u_a1, Some (a_ints u_a1)).
Proof.
  unfold agg_step, memory_safe_intervals. assert (E : get_interval u_a1 clock = Ok u_a1).
  { unfold get_interval. assert (Hl : match last (a_ints u_a1) with Some i => ia_start i =? truncate (a_dur u_a1) clock | None => false end = true) by (by vm_compute).
    destruct (last (a_ints u_a1)) as [i|]; [|done]. by rewrite Hl. }
  by rewrite E.
Qed.
Lemma u_out c : get_metrics minute (60 * minute) ((clock, OpCmd u_cmd) :: replicate c (clock, OpRead)) clock = Ok (a_ints u_a1).
Proof.
  unfold get_metrics. rewrite u_new. cbn [rbind agg_run]. rewrite u_emit. cbn [rbind fst].
  assert (E : agg_run u_a1 (replicate c (clock, OpRead)) = Ok u_a1). { induction c as [|c IH]; [done|]. cbn [replicate agg_run]. rewrite u_read. cbn. exact IH. }
  rewrite E. cbn [rbind]. rewrite u_read. done.
Qed.
Lemma u_y : a_ints u_a1 = y_out 0 1.
Proof.
  unfold y_out. change (hist 0 y_events !! 1%nat) with (Some (clock, OpRead)). change (take 1 (hist 0 y_events)) with ((clock, OpCmd u_cmd) :: replicate 0 (clock, OpRead)). cbv iota beta.
  by rewrite u_out.
Qed.

Lemma u_polled : match y_poll 0 1 with Ok _ => True | Crash _ => False end.
Proof. by vm_compute. Qed.
Lemma u_again tr ops i k j : sys go_float minute y_proc 0 tr ops → hist i tr !! k = Some (clock, OpRead) →
  get_metrics minute (60 * minute) (take k (hist i tr)) clock = Ok (y_out i j) → match y_poll i j with Ok _ => True | Crash _ => False end →
  sys go_float minute y_proc 0 (tr ++ [SRecv i k]) (ops ++ [HResp (y_resp i j) 1000 1001]).
Proof.
  intros HS Hk Hg Hp. unfold y_resp. destruct (y_poll i j) as [[w' r]|] eqn:Ep; [|done].
  destruct (y_serve i j) as [code body] eqn:Es.
  refine (sys_recv _ _ _ _ _ _ i k clock (y_out i j) "" code body (λ _ _, 0%N) 5 ENil (Reply "" 0 []) ex_world 0%nat 7 [] w' r 1000 1001 HS Hk Hg Es _ _).
  - done.
  - unfold y_poll in Ep. rewrite Es in Ep. exact Ep.
Qed.

Lemma u_squash (s : Z) k : squash (s :: replicate k s) = [s].
Proof.
  induction k as [|k IH]; [done|]. cbn [replicate]. change (squash (s :: s :: replicate k s)) with (if decide (s = s) then squash (s :: replicate k s) else s :: squash (s :: replicate k s)).
  by rewrite decide_True.
Qed.

Section Whole.
Context (h1 h2 : MHealthd.hd) (o1 o2 : rorder).
Local Notation u_now := (λ _ : hkey, clock).
Local Notation x := (q_x (y_resp 0 1) (hd_init ["h:1"]) h1 h2 o1 o2 u_now).
Local Notation z := (z_x clock u_a0 u_a1).

Definition u_evs (n : nat) : list sev :=
  let '(c, r) := ru n in
  match r with
  | 2 => match c with 0 => [SProc 0 clock (OpCmd u_cmd)] | _ => [] end
  | 4 => [SProc 0 clock OpRead]
  | 7 => [SRecv 0 (S c)]
  | 11 => [SRecalc (PLiveWholeEx2.oc o1 o2 c)]
  | 13 => [SRecalc o2]
  | 18 => [SPurge u_now]
  | _ => []
  end%nat.
Fixpoint u_trs (n : nat) : list sev := match n with O => [] | S n => u_trs n ++ u_evs n end.
Lemma u_trs_hist n : hist 0 (u_trs n) = u_hist clock n.
Proof using.
  induction n as [|n IH]; [done|]. cbn [u_trs]. rewrite hist_app, IH, u_hist_S. f_equal. unfold u_evs, u_ops.
  pose proof (ru_lt n) as Hl. destruct (ru n) as [c r]. cbn in Hl. destruct c as [|c]; do 19 (try destruct r as [|r]); try lia; done.
Qed.
Lemma u_trs_other i n : hist (S i) (u_trs n) = [].
Proof using.
  induction n as [|n IH]; [done|]. cbn [u_trs]. rewrite hist_app, IH. unfold u_evs. destruct (ru n) as [c r]. destruct c as [|c]; do 19 (try destruct r as [|r]); done.
Qed.
Lemma u_ok n : procs_ok minute y_proc (u_trs n).
Proof using.
  destruct y_procs as [H1 H2 H3 H4 H5 H6]. split; try done.
  - intros [|i]; [rewrite u_trs_hist|rewrite u_trs_other; constructor]. destruct (u_hist_shape clock n) as [->|(c&->)]; [constructor|].
    unfold clock_monotone. cbn [map fst]. assert (E : map fst (replicate c (clock, OpRead)) = replicate c clock) by (induction c; cbn; congruence). rewrite E.
    change (clock :: replicate c clock) with (replicate (S c) clock). generalize (S c). clear. intros c. induction c as [|c IH]; [constructor|]. cbn. constructor; [done|].
    clear. induction c; cbn; constructor; [lia|done].
  - intros [|i]; [rewrite u_trs_hist|rewrite u_trs_other; intros t o Hin; by apply elem_of_nil in Hin]. intros t o Hin.
    assert (Hin' : (t, o) ∈ hist 0 y_events).
    { destruct (u_hist_shape clock n) as [E|(c&E)]; rewrite E in Hin; [by apply elem_of_nil in Hin|]. apply elem_of_cons in Hin as [->|Hin]; [by left|].
      apply elem_of_replicate in Hin as [-> _]. right. by left. }
    exact (H5 0%nat t o Hin').
  - intros [|i] s; [rewrite u_trs_hist|by rewrite u_trs_other]. destruct (u_hist_shape clock n) as [->|(c&->)]; [done|].
    unfold cmds_in. assert (E : ∀ f : Z * aop → option cmd, f (clock, OpRead) = None → omap f (replicate c (clock, OpRead)) = []).
    { clear. intros f Hf. induction c as [|c IH]; [done|]. cbn. by rewrite Hf. }
    cbn [omap list_omap fst snd]. rewrite E by done. by case_bool_decide.
Qed.
Lemma u_sys n : sys go_float minute y_proc 0 (u_trs n) (ops (acts x n)).
Proof using.
  induction n as [|n IH]; [constructor|]. rewrite q_ops_S. cbn [u_trs]. unfold u_evs, q_ops.
  assert (Hh := u_trs_hist n). unfold u_hist in Hh.
  pose proof (ru_lt n) as Hl. destruct (ru n) as [c r] eqn:En. cbn [snd] in Hl.
  do 19 (try destruct r as [|r]); try lia; rewrite ?app_nil_r; try exact IH.
  - destruct c as [|c]; rewrite ?app_nil_r; [|exact IH]. by apply sys_proc.
  - by apply sys_proc.
  - rewrite decide_True in Hh by lia. assert (Hh' : hist 0 (u_trs n) = (clock, OpCmd u_cmd) :: replicate (S c) (clock, OpRead)) by (by destruct c). clear Hh.
    apply (u_again _ _ 0 (S c) 1); [exact IH| | |exact u_polled].
    + rewrite Hh'. change ((clock, OpCmd u_cmd) :: replicate (S c) (clock, OpRead)) with ([(clock, OpCmd u_cmd)] ++ replicate (S c) (clock, OpRead)).
      rewrite replicate_S_end. cbn. apply list_lookup_middle. by rewrite replicate_length.
    + rewrite Hh'. cbn [take]. rewrite take_replicate, Nat.min_l by lia. rewrite <- u_y. apply u_out.
  - by apply sys_recalc.
  - by apply sys_recalc.
  - by apply sys_purge.
Qed.
Lemma u_system : system_exec go_float minute y_proc 0 x u_trs.
Proof using. constructor; [intros n; by eexists|apply u_sys|apply u_ok]. Qed.

Lemma u_recv n i k : SRecv i k ∈ u_trs n → (k ≤ S (ru n).1)%nat.
Proof using.
  induction n as [|n IH]; intros Hin; [by apply elem_of_nil in Hin|]. cbn [u_trs] in Hin. apply elem_of_app in Hin as [Hin|Hin].
  - specialize (IH Hin). pose proof (ru_le (S n) n ltac:(lia)). lia.
  - pose proof (ru_le (S n) n ltac:(lia)) as Hle. unfold u_evs in Hin. destruct (ru n) as [c r]. cbn [fst] in Hle.
    do 19 (try destruct r as [|r]); try destruct c as [|c]; try (by apply elem_of_nil in Hin); apply elem_of_list_singleton in Hin; simplify_eq; lia.
Qed.
Lemma u_order n : in_order (u_trs n).
Proof using.
  induction n as [|n IH]; [intros i tr1 k tr2 k' E; by destruct tr1|].
  intros i tr1 k tr2 k' E Hin. cbn [u_trs] in E.
  assert (Hev : u_evs n = [] ∨ ∃ e, u_evs n = [e] ∧ ∀ i k, e = SRecv i k → k = S (ru n).1).
  { clear. unfold u_evs. destruct (ru n) as [c r]. do 19 (try destruct r as [|r]); try destruct c as [|c]; (by left) || (right; eexists; split; [reflexivity|]; intros ? ? ?; simplify_eq; done). }
  destruct Hev as [Ee|(e&Ee&He)]; rewrite Ee in E; [rewrite app_nil_r in E; by eapply IH|].
  destruct tr2 as [|e' tr2 _] using rev_ind; [by apply elem_of_nil in Hin|].
  rewrite app_comm_cons, app_assoc in E. apply app_inj_tail in E as [E <-]. apply elem_of_app in Hin as [Hin|Hin].
  - by eapply IH.
  - apply elem_of_list_singleton in Hin. rewrite (He _ _ (eq_sym Hin)). apply (u_recv n i). rewrite E. apply elem_of_app. right. left.
Qed.
Lemma u_kept n : kept minute y_start (u_trs n).
Proof using.
  intros now key Hin _. assert (E : now = u_now).
  { clear -Hin. induction n as [|n IH]; [by apply elem_of_nil in Hin|]. cbn [u_trs] in Hin. apply elem_of_app in Hin as [Hin|Hin]; [by apply IH|].
    unfold u_evs in Hin. destruct (ru n) as [c r]. do 19 (try destruct r as [|r]); try destruct c as [|c]; try (by apply elem_of_nil in Hin); apply elem_of_list_singleton in Hin; by simplify_eq. }
  rewrite E. by vm_compute.
Qed.
Lemma u_answers : answers y_proc x u_trs 0 0.
Proof using.
  intros n t k0 r t1 t2 Ha _ _. apply q_takes in Ha as [En ->]. exists (S k0). cbn [u_trs]. rewrite drop_app. split.
  - unfold u_evs. rewrite En. left.
  - intros b Hb. rewrite q_rounds in Hb. rewrite u_trs_hist. unfold u_hist. destruct (ru b) as [c j]. cbn [fst] in Hb.
    destruct c as [|c]; [destruct j as [|[|[|j]]]; cbn; try lia|cbn]; rewrite replicate_length; case_decide; lia.
Qed.
Lemma u_listed n k : takes_answer x u_trs n 0 k → y_start ∈ listed minute (60 * minute) (take (S k) (hist 0 (u_trs (S n)))).
Proof using.
  intros [_ Hin]. cbn [u_trs] in Hin. rewrite drop_app in Hin.
  assert (Hk : ru n = (k - 1, 7)%nat ∧ (0 < k)%nat).
  { unfold u_evs in Hin. destruct (ru n) as [c r]. do 19 (try destruct r as [|r]); try destruct c as [|c]; try (by apply elem_of_nil in Hin); apply elem_of_list_singleton in Hin; simplify_eq;
      (split; [f_equal; lia|lia]). }
  destruct Hk as [En Hk]. rewrite u_trs_hist. unfold u_hist. rewrite ru_S, En. rewrite decide_True by lia. replace (S (k - 1)) with k by lia.
  assert (E : take (S k) ((clock, OpCmd u_cmd) :: replicate k (clock, OpRead)) = (clock, OpCmd u_cmd) :: replicate k (clock, OpRead)).
  { apply take_ge. cbn. rewrite replicate_length. lia. }
  assert (Hs : squash (map (slot minute) (map fst ((clock, OpCmd u_cmd) :: replicate k (clock, OpRead)))) = [y_start]).
  { clear. cbn [map fst]. unfold y_start. assert (E : map (slot minute) (map fst (replicate k (clock, OpRead))) = replicate k (slot minute clock)) by (induction k; cbn; [done|]; by f_equal).
    rewrite E. apply u_squash. }
  destruct (k - 1)%nat; (rewrite E; unfold listed; rewrite Hs; vm_compute; left).
Qed.
Lemma u_process : process_of minute y_proc u_trs 0 0 [[u_call]] (u_sinks minute (60 * minute)) z.
Proof using.
  destruct (z_process minute (60 * minute) clock u_a0 u_a1 u_new u_emit u_read) as (Z1&Z2&Z3); [by vm_compute|by vm_compute|].
  constructor; [exact Z1|exact Z2|exact Z3|done|]. intros n. rewrite u_trs_hist. symmetry. apply z_hist.
Qed.
End Whole.

(** healthd when the answers bring nothing new *)
Lemma still_aggs inst hp l host need :
  forallb (λ o, match o with Some d => match host !! (d_time d, inst, hp) with Some old => ia_serial (d_ia old) =? ia_serial (d_ia d) | None => false end | None => false end) l = true →
  consume_aggs inst hp l host need = Ok (host, need).
Proof.
  induction l as [|[d|] l IH]; intros H; [done| |done]. cbn [forallb] in H. apply andb_prop in H as [H1 H2]. cbn [consume_aggs].
  destruct (host !! (d_time d, inst, hp)) as [old|]; [|done]. rewrite H1. by apply IH.
Qed.
Lemma still_consume h R t1 t2 hs : hd_status h !! r_hp R = Some hs → update_status hs R t1 t2 = hs → resp_good R = true → hd_dur h ≠ 0 → hd_dur h = r_dur R →
  forallb (λ o, match o with Some d => match hd_host h !! (d_time d, r_inst R, r_hp R) with Some old => ia_serial (d_ia old) =? ia_serial (d_ia d) | None => false end | None => false end) (r_aggs R) = true →
  consume h R t1 t2 = Ok h.
Proof.
  intros H1 H2 H3 H4 H5 H6. unfold consume. rewrite H1, H2, H3, insert_id by done. rewrite (proj2 (Z.eqb_neq _ _) H4), (proj2 (Z.eqb_eq _ _) H5).
  rewrite still_aggs by done. by destruct h.
Qed.
Lemma still_recalc h o : hd_need h = ∅ → rorder_ok h o → recalc h o = Ok h.
Proof.
  intros H (Hk&_&_). rewrite H, elements_empty in Hk. apply Permutation_nil_r in Hk. unfold recalc. rewrite Hk. cbn. rewrite <- H. by destruct h.
Qed.
Lemma still_purge h now : forallb (λ kd : hkey * dagg, negb (w64 (hd_dur h * 5) <? since (now kd.1) (key_time kd.1).1)) (map_to_list (hd_host h)) = true →
  (hd_max h <? Z.of_nat (length (hd_pub h))) = false → purge h now = Ok h.
Proof.
  intros H1 H2. unfold purge, truncate_pub. rewrite H2. cbn [rbind]. rewrite map_filter_id; [by destruct h|]. intros k v Hkv.
  apply elem_of_map_to_list in Hkv. rewrite forallb_forall in H1. apply elem_of_list_In in Hkv. specialize (H1 _ Hkv). apply negb_true_iff, Z.ltb_ge in H1. cbn in *. lia.
Qed.

Local Notation w_h := (z_end1 1).
Lemma w_consume : consume w_h (y_resp 0 1) 1000 1001 = Ok w_h.
Proof.
  assert (H : match hd_status w_h !! r_hp (y_resp 0 1) with Some hs => update_status hs (y_resp 0 1) 1000 1001 = hs | None => False end) by (vm_compute; reflexivity).
  destruct (hd_status w_h !! r_hp (y_resp 0 1)) as [hs|] eqn:E; [|destruct H].
  apply (still_consume _ _ _ _ hs); [exact E|exact H|vm_compute; reflexivity|vm_compute; discriminate|vm_compute; reflexivity|vm_compute; reflexivity].
Qed.
Lemma w_purge : purge w_h (λ _, clock) = Ok w_h.
Proof. apply still_purge; vm_compute; reflexivity. Qed.

Lemma whole_example : ∃ x trs y ks z, system_exec go_float minute y_proc 0 x trs ∧ process_of minute y_proc trs 0 0 [[u_call]] ks z ∧
  healthd_exec ["h:1"] x ∧ healthd_fair x ∧ never (is_act is_stop) x ∧ asks_fair x ∧ answers y_proc x trs 0 0 ∧ time_passes x ∧ (∀ n, in_order (trs n)) ∧ unpurged minute x trs ∧
  top_exec go_float isort "name" "" "healthd.1" (λ _, 24) x y ∧
  SProcess.tells_sink 0 [u_call] = [CEvent "job" "e"] ∧
  (∀ n k, takes_answer x trs n 0 k → slot minute clock ∈ listed minute (60 * minute) (take (S k) (hist 0 (trs (S n))))) ∧ (∀ n, kept minute (slot minute clock) (trs n)) ∧
  on_screen y 18%nat = None ∧ ∀ n, (19 ≤ n)%nat → on_screen y n = Some [w_row].
Proof.
  pose proof (z_run1 1 ltac:(by left)) as Hr. unfold z_ops1 in Hr. revert Hr. generalize (the_order (z_state1 1)). intros o1 Hr.
  change [HResp (y_resp 0 1) 1000 1001; HRecalc o1] with ([HResp (y_resp 0 1) 1000 1001] ++ [HRecalc o1]) in Hr.
  apply hrun_snoc in Hr as (h1&Hr1&Ho&Hr2). change [HResp (y_resp 0 1) 1000 1001] with ([] ++ [HResp (y_resp 0 1) 1000 1001]) in Hr1.
  apply hrun_snoc in Hr1 as (h0&Hr0&_&Hr1). inversion Hr0; subst h0. clear H s Hr0. cbn [hstep] in Hr1, Hr2. cbn [hop_ok] in Ho.
  assert (Hneed : hd_need w_h = ∅).
  { revert Hr2. generalize w_h. clear. intros h. unfold recalc. destruct (recalc_loop _ _ _ _); cbn [rbind]; [|discriminate]. intros E. injection E as <-. done. }
  assert (Hpub0 : hd_pub h1 = []).
  { revert Hr1. generalize (y_resp 0 1). clear. intros r. unfold consume. cbn [hd_dur hd_init]. rewrite Z.eqb_refl.
    destruct (resp_good r); [|by intros [= <-]]. destruct (r_dur r =? 0); [discriminate|]. destruct (consume_aggs _ _ _ _ _); cbn [rbind]; [|discriminate]. by intros [= <-]. }
  assert (Ho2 := the_order_ok w_h). revert Ho2. generalize (the_order w_h). intros o2 Ho2.
  assert (F2 := still_recalc _ _ Hneed Ho2).
  assert (Hhs : hosts_of w_h = ["h:1"]) by (vm_compute; reflexivity).
  assert (Hst : map (λ p, ia_start (pa_ia p)) (hd_pub w_h) = [y_start]) by (vm_compute; reflexivity).
  assert (HR : r_hp (y_resp 0 1) = "h:1") by (vm_compute; reflexivity).
  assert (Hpg := w_page : top_page go_float isort "name" "" "healthd.1" 24 (hd_pub w_h) [w_row]).
  assert (Hcs := w_consume). assert (Hpu := w_purge).
  revert Hr2 Hneed Ho2 F2 Hhs Hst Hpg Hcs Hpu. generalize w_h. intros h2 Hr2 Hneed Ho2 F2 Hhs Hst Hpg Hcs Hpu.
  destruct (asking_again (y_resp 0 1) (hd_init ["h:1"]) h1 h2 o1 o2 (λ _, clock) HR eq_refl Hr1 Hcs Ho Hr2 Ho2 F2 Hpu Hhs eq_refl) as (X1&X2&X3&X4&X5).
  exists (q_x (y_resp 0 1) (hd_init ["h:1"]) h1 h2 o1 o2 (λ _, clock)), (u_trs o1 o2), (s_x [w_row]), (u_sinks minute (60 * minute)), (z_x clock u_a0 u_a1).
  split; [apply u_system|]. split; [apply u_process|]. split; [exact X1|]. split; [exact X2|]. split; [exact X4|]. split; [exact X3|]. split; [apply u_answers|]. split; [exact X5|]. split; [apply u_order|].
  split; [|split; [|split; [|split; [|split; [|split]]]]].
  - intros r p _ Hin. assert (E : ia_start (pa_ia p) = y_start); [|rewrite E; apply u_kept].
    cbn [x_at q_x] in Hin. destruct (q_pub (y_resp 0 1) (hd_init ["h:1"]) h1 h2 (S r)) as [E|[E|E]]; rewrite E in Hin; [destruct (not_elem_of_nil _ Hin)|rewrite Hpub0 in Hin; destruct (not_elem_of_nil _ Hin)|].
    apply (elem_of_list_fmap_1 (λ p, ia_start (pa_ia p))) in Hin. change (ia_start (pa_ia p) ∈ map (λ p, ia_start (pa_ia p)) (hd_pub h2)) in Hin. rewrite Hst in Hin. apply elem_of_list_singleton in Hin. exact Hin.
  - apply jobs_again. intros i. exact Hpg.
  - reflexivity.
  - intros n k. exact (u_listed h1 h2 o1 o2 n k).
  - intros n. exact (u_kept o1 o2 n).
  - done.
  - intros n Hn. pose proof (ru_le n 19 Hn) as Hl. change (ru 19).1 with 1%nat in Hl. unfold on_screen. cbn [x_at s_x]. unfold PLiveWholeEx2.t_at. destruct (ru n) as [c r]. cbn [fst] in Hl. destruct c; [lia|]. done.
Qed.
