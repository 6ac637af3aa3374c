(** * Concrete executions with races and with two notifications *)
From Verif Require Import SRace PRace.

Definition rc_shared (made : own → bool) : shared :=
  Shared made (λ m, match m with MOf o => made o | _ => false end) (λ _, [SkSync; SkBugsnag 0; SkPoll 0; SkQueue]) (λ _, false) (λ _, []) (λ _, false) (λ _, []).
Definition rc_stream (j : nat) : nat := 0%nat.
(** errors 5 and 8 have the same text and stack *)
Definition rc_same (l e : nat) : bool := bool_decide (l = e ∨ (l = 5 ∧ e = 8) ∨ (l = 8 ∧ e = 5))%nat.

(** a job with key/values reports an error, then gets another key/value, while
    the Bugsnag sink notifies *)
Definition rc_job : shared := rc_shared (λ o, bool_decide (o = OJob 0)).
Definition rc_prog : list (list call) := [[CEmit (Em 0 None (Some 5%nat)); CKeyValue (OJob 0)]].
Definition rc_steps : list racs := replicate 13 (AG 0) ++ [ATake 0] ++ replicate 2 (AG 0).
Lemma rc_race : ∃ s tr, executes rc_stream rc_job rc_prog s tr ∧ race rc_stream rc_same s.
Proof.
  destruct (rrun rc_stream (starts_with rc_job rc_prog) rc_steps) as [[s tr]|] eqn:E; [|vm_compute in E; discriminate E]. exists s, tr. split; [exists rc_steps; exact E|].
  assert (r_gs s = [(KvPut (OJob 0), [])] ∧ r_bs s 0%nat = Some (5%nat, Some (MOf (OJob 0)))) as [E1 E2].
  { assert ((λ x : rstate * list rlab, (r_gs x.1, r_bs x.1 0%nat)) <$> rrun rc_stream (starts_with rc_job rc_prog) rc_steps =
      Some ([(KvPut (OJob 0), [])], Some (5%nat, Some (MOf (OJob 0))))) as H by (vm_compute; reflexivity).
    rewrite E in H. clear E. cbn in H. injection H as H1 H2. split; assumption. }
  clear E.
  exists (Goroutine 0), (BugsnagLoop 0), (LMap (MOf (OJob 0))). split; [done|]. split.
  - exists (KvPut (OJob 0)), []. rewrite E1. split; [done|]. right. by left.
  - right. cbn. rewrite E2. cbn. destruct (sh_framed _ _); set_solver.
Qed.
(** a stream gets a key/value while a job emits *)
Definition rc_str : shared := rc_shared (λ o, bool_decide (o = OStream 0)).
Definition rc_prog2 : list (list call) := [[CKeyValue (OStream 0)]; [CEmit (Em 1 None None)]].
Definition rc_steps2 : list racs := [AG 0; AG 0; AG 1; AG 1; AG 1].
Lemma rc_race2 : ∃ s tr, executes rc_stream rc_str rc_prog2 s tr ∧ race rc_stream rc_same s.
Proof.
  destruct (rrun rc_stream (starts_with rc_str rc_prog2) rc_steps2) as [[s tr]|] eqn:E; [|vm_compute in E; discriminate E]. exists s, tr. split; [exists rc_steps2; exact E|].
  assert (r_gs s = [(KvPut (OStream 0), []); (EmStrLen (Em 1 None None) false, [])]) as E1.
  { assert ((λ x : rstate * list rlab, r_gs x.1) <$> rrun rc_stream (starts_with rc_str rc_prog2) rc_steps2 =
      Some [(KvPut (OStream 0), []); (EmStrLen (Em 1 None None) false, [])]) as H by (vm_compute; reflexivity).
    rewrite E in H. clear E. cbn in H. injection H as H1. exact H1. }
  clear E.
  exists (Goroutine 0), (Goroutine 1), (LMap (MOf (OStream 0))). split; [done|]. split.
  - exists (KvPut (OStream 0)), []. rewrite E1. split; [done|]. right. by left.
  - right. exists (EmStrLen (Em 1 None None) false), []. rewrite E1. split; [done|]. right. by left.
Qed.
Lemma thm_race_refuted : ∃ sof same w cs s tr, fresh_queues w ∧ (∀ c, c ∈ cs → match c with CAddSink _ _ | CKeyValue (OStream _) => False | _ => True end) ∧
  executes sof w [cs] s tr ∧ race sof same s.
Proof.
  destruct rc_race as (s&tr&H1&H2). exists rc_stream, rc_same, rc_job, [CEmit (Em 0 None (Some 5%nat)); CKeyValue (OJob 0)], s, tr. split; [done|]. split; [|done].
  intros c Hc. repeat (apply elem_of_cons in Hc as [->|Hc]; [done|]). by apply elem_of_nil in Hc.
Qed.
Lemma thm_race_stream_refuted : ∃ sof same w s tr, fresh_queues w ∧ executes sof w [[CKeyValue (OStream 0)]; [CEmit (Em 1 None None)]] s tr ∧ race sof same s.
Proof. destruct rc_race2 as (s&tr&H). by exists rc_stream, rc_same, rc_str, s, tr. Qed.
(** one goroutine reports two errors with the same text and stack: the polling
    sink compares them while the second is marked *)
Definition rc_poll : shared := Shared (λ _, false) (λ _, false) (λ _, [SkPoll 0]) (λ _, false) (λ _, []) (λ _, false) (λ _, []).
Definition rc_prog4 : list (list call) := [[CEmit (Em 0 None (Some 5%nat)); CEmit (Em 0 None (Some 8%nat))]].
Definition rc_steps4 : list racs := replicate 8 (AG 0) ++ [APoll 0; ACounted 0] ++ replicate 7 (AG 0) ++ [APoll 0].
Lemma rc_race4 : ∃ s tr, executes rc_stream rc_poll rc_prog4 s tr ∧ race rc_stream rc_same s.
Proof.
  destruct (rrun rc_stream (starts_with rc_poll rc_prog4) rc_steps4) as [[s tr]|] eqn:E; [|vm_compute in E; discriminate E]. exists s, tr. split; [exists rc_steps4; exact E|].
  assert (r_gs s = [(EmMark (Em 0 None (Some 8%nat)), [])] ∧ r_seen s 0%nat = [5%nat] ∧ r_now s 0%nat = Some 8%nat) as (E1&E2&E3).
  { assert ((λ x : rstate * list rlab, (r_gs x.1, r_seen x.1 0%nat, r_now x.1 0%nat)) <$> rrun rc_stream (starts_with rc_poll rc_prog4) rc_steps4 =
      Some ([(EmMark (Em 0 None (Some 8%nat)), [])], [5%nat], Some 8%nat)) as H by (vm_compute; reflexivity).
    rewrite E in H. clear E. cbn in H. injection H as H1 H2 H3. split_and!; assumption. }
  clear E.
  exists (Goroutine 0), (PollingLoop 0), (LFlag 8). split; [done|]. split.
  - exists (EmMark (Em 0 None (Some 8%nat))), []. rewrite E1. split; [done|]. by left.
  - right. cbn. rewrite E2, E3. cbn. do 3 right. by left.
Qed.
(** one goroutine reports an error on a stream with two Bugsnag sinks: both
    resolve the frames of its stack *)
Definition rc_two : shared := Shared (λ _, false) (λ _, false) (λ _, [SkBugsnag 0; SkBugsnag 1]) (λ _, false) (λ _, []) (λ _, false) (λ _, []).
Definition rc_prog5 : list (list call) := [[CEmit (Em 0 None (Some 5%nat))]].
Definition rc_steps5 : list racs := replicate 11 (AG 0) ++ [ATake 0; ATake 1].
Lemma rc_race5 : ∃ s tr, executes rc_stream rc_two rc_prog5 s tr ∧ Forall (λ pc : ph * list call, pc = (Idle, [])) (r_gs s) ∧ race rc_stream rc_same s.
Proof.
  destruct (rrun rc_stream (starts_with rc_two rc_prog5) rc_steps5) as [[s tr]|] eqn:E; [|vm_compute in E; discriminate E]. exists s, tr. split; [exists rc_steps5; exact E|].
  assert (r_gs s = [(Idle, [])] ∧ r_bs s 0%nat = Some (5%nat, None) ∧ r_bs s 1%nat = Some (5%nat, None) ∧ sh_framed (r_sh s) 5%nat = false) as (E1&E2&E3&E4).
  { assert ((λ x : rstate * list rlab, (r_gs x.1, r_bs x.1 0%nat, r_bs x.1 1%nat, sh_framed (r_sh x.1) 5%nat)) <$> rrun rc_stream (starts_with rc_two rc_prog5) rc_steps5 =
      Some ([(Idle, [])], Some (5%nat, None), Some (5%nat, None), false)) as H by (vm_compute; reflexivity).
    rewrite E in H. clear E. cbn in H. injection H as H1 H2 H3 H4. split_and!; assumption. }
  clear E. split; [rewrite E1; by repeat constructor|].
  exists (BugsnagLoop 0), (BugsnagLoop 1), (LFrames 5). split; [done|]. split; [|left]; cbn; rewrite ?E2, ?E3; cbn; rewrite E4; right; by left.
Qed.
(** ... and with a Bugsnag and a polling sink, two errors with the same text and
    stack: Bugsnag's goroutine resolves the first while the polling sink's
    compares it to the second *)
Definition rc_steps6 : list racs := replicate 10 (AG 0) ++ [APoll 0; ACounted 0; ATake 0] ++ replicate 10 (AG 0) ++ [APoll 0].
Definition rc_both : shared := Shared (λ _, false) (λ _, false) (λ _, [SkBugsnag 0; SkPoll 0]) (λ _, false) (λ _, []) (λ _, false) (λ _, []).
Lemma rc_race6 : ∃ s tr, executes rc_stream rc_both rc_prog4 s tr ∧ Forall (λ pc : ph * list call, pc = (Idle, [])) (r_gs s) ∧ race rc_stream rc_same s.
Proof.
  destruct (rrun rc_stream (starts_with rc_both rc_prog4) rc_steps6) as [[s tr]|] eqn:E; [|vm_compute in E; discriminate E]. exists s, tr. split; [exists rc_steps6; exact E|].
  assert (r_gs s = [(Idle, [])] ∧ r_bs s 0%nat = Some (5%nat, None) ∧ r_seen s 0%nat = [5%nat] ∧ r_now s 0%nat = Some 8%nat ∧ sh_framed (r_sh s) 5%nat = false) as (E1&E2&E3&E3'&E4).
  { assert ((λ x : rstate * list rlab, (r_gs x.1, r_bs x.1 0%nat, r_seen x.1 0%nat, r_now x.1 0%nat, sh_framed (r_sh x.1) 5%nat)) <$> rrun rc_stream (starts_with rc_both rc_prog4) rc_steps6 =
      Some ([(Idle, [])], Some (5%nat, None), [5%nat], Some 8%nat, false)) as H by (vm_compute; reflexivity).
    rewrite E in H. clear E. cbn in H. injection H as H1 H2 H3 H4 H5. split_and!; assumption. }
  clear E. split; [rewrite E1; by repeat constructor|].
  exists (BugsnagLoop 0), (PollingLoop 0), (LFrames 5). split; [done|]. split; [|right]; cbn; rewrite ?E2, ?E3, ?E3'; cbn; [rewrite E4; right; by left|by left].
Qed.
(** one goroutine, which only reports errors, without key/values *)
Lemma thm_race_flag_refuted : ∃ sof same w s tr, fresh_queues w ∧ (∀ t, sh_sinks w t = [SkPoll 0]) ∧
  executes sof w [[CEmit (Em 0 None (Some 5%nat)); CEmit (Em 0 None (Some 8%nat))]] s tr ∧ race sof same s.
Proof. destruct rc_race4 as (s&tr&H). exists rc_stream, rc_same, rc_poll, s, tr. split; [done|]. split; [done|exact H]. Qed.
Lemma thm_race_frames_refuted : ∃ sof same w s tr, fresh_queues w ∧ (∀ t, sh_sinks w t = [SkBugsnag 0; SkBugsnag 1]) ∧
  executes sof w [[CEmit (Em 0 None (Some 5%nat))]] s tr ∧ Forall (λ pc : ph * list call, pc = (Idle, [])) (r_gs s) ∧ race sof same s.
Proof. destruct rc_race5 as (s&tr&H). exists rc_stream, rc_same, rc_two, s, tr. split; [done|]. split; [done|exact H]. Qed.
Lemma thm_race_compared_refuted : ∃ sof same w s tr, fresh_queues w ∧ (∀ t, sh_sinks w t = [SkBugsnag 0; SkPoll 0]) ∧
  executes sof w [[CEmit (Em 0 None (Some 5%nat)); CEmit (Em 0 None (Some 8%nat))]] s tr ∧
  Forall (λ pc : ph * list call, pc = (Idle, [])) (r_gs s) ∧ race sof same s.
Proof. destruct rc_race6 as (s&tr&H). exists rc_stream, rc_same, rc_both, s, tr. split; [done|]. split; [done|exact H]. Qed.

(** two goroutines report one error at once *)
Definition rc_prog3 : list (list call) := [[CEmit (Em 0 None (Some 5%nat))]; [CEmit (Em 1 None (Some 5%nat))]].
Definition rc_steps3 : list racs := replicate 8 (AG 0) ++ replicate 7 (AG 1) ++ replicate 5 (AG 0) ++ replicate 5 (AG 1).
Lemma rc_twice : ∃ s tr, executes rc_stream rc_job rc_prog3 s tr ∧ sends 0 5 tr = 2%nat ∧ overlapping 5 tr = 2%nat ∧ existsb (returned 5) tr = true.
Proof.
  destruct (rrun rc_stream (starts_with rc_job rc_prog3) rc_steps3) as [[s tr]|] eqn:E; [|vm_compute in E; discriminate E]. exists s, tr. split; [exists rc_steps3; exact E|].
  assert ((λ x : rstate * list rlab, (sends 0 5 x.2, overlapping 5 x.2, existsb (returned 5) x.2)) <$> rrun rc_stream (starts_with rc_job rc_prog3) rc_steps3 =
    Some (2%nat, 2%nat, true)) as H by (vm_compute; reflexivity).
  rewrite E in H. clear E. cbn [fmap option_fmap option_map snd] in H. injection H as H1 H2 H3. done.
Qed.
Lemma rc_alone : no_setup rc_prog3.
Proof. intros [|[|g]] s k (cs&E&Hc); cbn in E; try done; injection E as <-; by apply elem_of_list_singleton in Hc. Qed.
Lemma thm_twice_refuted : ∃ sof w progs s tr b e, no_setup progs ∧ fresh_queues w ∧ sh_flag w e = false ∧ (∀ t, times b (sh_sinks w t) = 1%nat) ∧
  executes sof w progs s tr ∧ sends b e tr = 2%nat.
Proof.
  destruct rc_twice as (s&tr&H1&H2&_). exists rc_stream, rc_job, rc_prog3, s, tr, 0%nat, 5%nat. split; [apply rc_alone|]. by split_and!.
Qed.
Lemma thm_once sof w progs b e s tr : no_setup progs → sh_flag w e = false → (∀ t, times b (sh_sinks w t) = 1%nat) → executes sof w progs s tr →
  (sends b e tr ≤ overlapping e tr)%nat ∧ (existsb (returned e) tr = true → 1 ≤ sends b e tr)%nat.
Proof.
  intros HA HF Ht HE. split.
  - eapply (thm_upper sof w progs b e HA HF); [|done]. intros t. by rewrite Ht.
  - intros Hr. eapply (thm_lower sof w progs b e HA HF); [|done|done]. intros t. by rewrite Ht.
Qed.

(** good use: two goroutines with a job each, which get key/values, and one
    they share, which does not; each reports its own error *)
Definition rc_good : list (list call) :=
  [[CKeyValue (OJob 0); CInst 7; CEmit (Em 0 (Some 7%nat) (Some 5%nat)); CEmit (Em 2 None None)]; [CKeyValue (OJob 1); CEmit (Em 1 None None); CEmit (Em 2 None (Some 6%nat))]].
Lemma rc_good_says g c : says rc_good g c → (g = 0%nat ∧ c ∈ [CKeyValue (OJob 0); CInst 7; CEmit (Em 0 (Some 7%nat) (Some 5%nat)); CEmit (Em 2 None None)]) ∨
  (g = 1%nat ∧ c ∈ [CKeyValue (OJob 1); CEmit (Em 1 None None); CEmit (Em 2 None (Some 6%nat))]).
Proof. intros (cs&E&Hc). destruct g as [|[|g]]; cbn in E; try done; injection E as <-; auto. Qed.
Ltac in_list H := repeat (apply elem_of_cons in H as [->|H]; [|]); try (by apply elem_of_nil in H).
Ltac in_list2 H := repeat (apply elem_of_cons in H as [H|H]; [try discriminate H|]); try (by apply elem_of_nil in H).
Lemma rc_goes w e k : goes_to rc_stream w rc_good e k → (e = 5 ∨ e = 6)%nat ∧ k ∈ sh_sinks w 0%nat.
Proof.
  intros (g&x&Hs&Ee&Hk). split; [|done]. apply rc_good_says in Hs as [[-> Hs]|[-> Hs]]; in_list2 Hs; injection Hs as ->; try discriminate Ee; injection Ee as <-; auto.
Qed.
Lemma rc_used : used_well rc_stream rc_same rc_str rc_good.
Proof.
  split.
  - intros g c Hc. apply rc_good_says in Hc as [[-> Hc]|[-> Hc]]; in_list Hc; done.
  - intros g h j c Hg Hh Hj. apply rc_good_says in Hg as [[-> Hg]|[-> Hg]]; apply rc_good_says in Hh as [[-> Hh]|[-> Hh]]; try done;
      in_list2 Hg; injection Hg as ->; in_list Hh; cbn in Hj; done.
  - intros g h c x Hg Hh Hj. apply rc_good_says in Hg as [[-> Hg]|[-> Hg]]; apply rc_good_says in Hh as [[-> Hh]|[-> Hh]]; try done;
      in_list2 Hg; injection Hg as ->; in_list Hh; cbn in Hj; done.
  - intros g h e c d Hg Hh Hc Hd. apply rc_good_says in Hg as [[-> Hg]|[-> Hg]]; apply rc_good_says in Hh as [[-> Hh]|[-> Hh]]; try done; in_list Hg; in_list Hh; cbn in *; first [contradiction|congruence].
  - intros g cs1 x cs2 e E Ee. right. destruct g as [|[|g]]; cbn in E; [| |done]; injection E as E.
    + destruct cs1 as [|? [|? [|? [|? cs1]]]]; cbn in E; try discriminate E; injection E; intros; subst; try discriminate Ee; try (by destruct cs1).
      cbn. split; [|intros c _]; intros H; in_list2 H.
    + destruct cs1 as [|? [|? [|? cs1]]]; cbn in E; try discriminate E; injection E; intros; subst; try discriminate Ee; try (by destruct cs1).
      cbn. split; [|intros c _]; intros H; in_list2 H.
  - intros e b c H1 H2. apply rc_goes in H1 as [_ H1]. apply rc_goes in H2 as [_ H2]. in_list2 H1; in_list2 H2. congruence.
  - intros e l p H1 H2 Hs. apply rc_goes in H1 as [H1 _]. apply rc_goes in H2 as [H2 _]. unfold rc_same in Hs. apply bool_decide_eq_true in Hs. lia.
Qed.
Definition rc_good_steps : list racs := replicate 36 (AG 0) ++ replicate 33 (AG 1) ++ [ATake 0; ANotified 0; APoll 0; ACounted 0; APoll 0].
Lemma rc_good_runs : ∃ s tr, executes rc_stream rc_str rc_good s tr ∧ Forall (λ pc : ph * list call, pc = (Idle, [])) (r_gs s) ∧ sends 0 5 tr = 1%nat ∧ sends 0 6 tr = 1%nat ∧
  sh_framed (r_sh s) 5%nat = true ∧ r_seen s 0%nat = [5%nat] ∧ r_now s 0%nat = Some 6%nat.
Proof.
  destruct (rrun rc_stream (starts_with rc_str rc_good) rc_good_steps) as [[s tr]|] eqn:E; [|vm_compute in E; discriminate E].
  exists s, tr. split; [exists rc_good_steps; exact E|].
  assert ((λ x : rstate * list rlab, (r_gs x.1, sends 0 5 x.2, sends 0 6 x.2, sh_framed (r_sh x.1) 5%nat, r_seen x.1 0%nat, r_now x.1 0%nat)) <$> rrun rc_stream (starts_with rc_str rc_good) rc_good_steps =
    Some ([(Idle, []); (Idle, [])], 1%nat, 1%nat, true, [5%nat], Some 6%nat)) as H by (vm_compute; reflexivity).
  rewrite E in H. clear E. cbn [fmap option_fmap option_map fst snd] in H. injection H as H1 H2 H3 H4 H5 H6. rewrite H1. split; [by repeat constructor|done].
Qed.
(** all the accesses of a goroutine running alone *)
Fixpoint alone (n : nat) (s : rstate) : list acc :=
  match n, r_gs s with
  | S n, (p, _) :: _ => accs rc_stream p ++ match rstep rc_stream s (AG 0) with Some (s, _) => alone n s | None => [] end
  | _, _ => []
  end.
