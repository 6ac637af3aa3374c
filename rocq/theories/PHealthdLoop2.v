(** * Proofs about healthd's goroutines: deadlock, handlers, Stop, rounds *)
From Verif Require Import SHealthdLoop PHealthd PHealthd2 PHealthd4 PHealthdLoop.

Ltac after_case := unfold after in *;
  repeat match goal with
  | |- context [match ?r with Ok _ => _ | Crash _ => _ end] => destruct r eqn:?
  | H : context [match ?r with Ok _ => _ | Crash _ => _ end] |- _ => destruct r eqn:?
  end; cbn in *.

(** ** Deadlock *)
Lemma wedged_step s a s' : wedged s → hlstep s a s' → wedged s' ∧ l_deb s' = l_deb s ∧ l_hd s' = l_hd s.
Proof.
  intros (H1&H2&o&H3) H.
  inversion H; subst; cbn; try congruence; try (by repeat split; eauto).
  all: match goal with
       | Hd : dstep _ (l_deb _) _ _ |- _ => rewrite H3 in Hd; inversion Hd
       | Hr : l_req _ < req_cap |- _ => unfold req_cap in Hr; lia
       end.
Qed.
Lemma wedged_forever s tr s' : wedged s → hlsteps s tr s' → l_loop s' = AReq ∧ l_deb s' = l_deb s ∧ l_hd s' = l_hd s.
Proof.
  intros Hw H. induction H as [s|s a s1 tr s' H1 H2 IH]; [by destruct Hw|].
  pose proof (wedged_step _ _ _ Hw H1) as (Hw1&<-&<-). by apply IH.
Qed.

(** the capacity that is left *)
Lemma fold_taken_snoc tr a : taken_since_idle (tr ++ [a]) =
  match a.2 with HTakeResp _ _ _ _ => taken_since_idle tr + 1 | HDeb DIdle => 0 | _ => taken_since_idle tr end.
Proof. unfold taken_since_idle. by rewrite fold_left_app. Qed.
Lemma taken_nonneg tr : 0 ≤ taken_since_idle tr.
Proof.
  induction tr as [|[t a] tr IH] using rev_ind; [done|]. rewrite fold_taken_snoc. cbn.
  destruct a as [| | | | | |[]| | | | | | | | | |]; lia.
Qed.
Definition inflight (l : aloop) : Z := match l with AReq => 1 | _ => 0 end.
Lemma req_bound hosts tr s : hlsteps (hl_init hosts) tr s →
  0 ≤ l_req s ≤ 64 ∧ l_req s + inflight (l_loop s) ≤ taken_since_idle tr + 1.
Proof.
  revert s. induction tr as [|a tr IH] using rev_ind; intros s H.
  { inversion H; subst. cbn. lia. }
  apply hlsteps_snoc in H as (m&H1&H2). specialize (IH m H1) as (Hb&Hle).
  pose proof (taken_nonneg tr) as Hnn. rewrite fold_taken_snoc.
  assert (Hi : 0 ≤ inflight (l_loop m) ≤ 1) by (destruct (l_loop m); cbn; lia).
  inversion H2; subst; cbn [snd]; after_case; unfold req_cap in *;
    repeat match goal with H : l_loop _ = _ |- _ => rewrite H in *; cbn in * end; lia.
Qed.

(** ** Handlers *)
Definition loop_place (l : aloop) : list (nat * query) :=
  match l with AReplyI i _ => [(i, QIntervals)] | AReplyH i _ => [(i, QHosts)] | _ => [] end.
Definition places (s : hl) : list (nat * query) :=
  l_pass s ++ map (λ i, (i, QIntervals)) (l_iq s) ++ map (λ i, (i, QHosts)) (l_hq s) ++ loop_place (l_loop s).

Lemma open_call_snoc i tr a : open_call i (tr ++ [a]) =
  match a.2 with
  | HCall j q => if decide (j = i) then Some q else open_call i tr
  | HRet j _ => if decide (j = i) then None else open_call i tr
  | _ => open_call i tr end.
Proof. unfold open_call. by rewrite fold_left_app. Qed.

Lemma idle_places s i q : l_idle s i → (i, q) ∉ places s.
Proof.
  intros (H1&H2&H3&H4&H5). unfold places. rewrite !elem_of_app, !elem_of_list_fmap.
  intros [H|[(j&[= -> _]&H)|[(j&[= -> _]&H)|H]]]; [by eapply H1|done|done|].
  destruct (l_loop s) as [| |j out|j out| | |] eqn:E; cbn in H; try (by apply elem_of_nil in H).
  - apply elem_of_list_singleton in H as [= -> _]. by eapply H4.
  - apply elem_of_list_singleton in H as [= -> _]. by eapply H5.
Qed.
Lemma idle_places_fst s i : l_idle s i → i ∉ map fst (places s).
Proof. intros H. rewrite elem_of_list_fmap. intros ([j q]&->&Hin). by eapply idle_places in Hin. Qed.

Lemma places_step s a s' : hlstep s a s' →
  match a.2 with
  | HCall i q => places s' = (i, q) :: places s ∧ i ∉ map fst (places s)
  | HRet i x => ∃ q, places s ≡ₚ (i, q) :: places s' ∧ match x with AnsI _ => q = QIntervals | AnsH _ => q = QHosts end
  | _ => places s' ≡ₚ places s
  end.
Proof.
  intros H. unfold places.
  inversion H; subst; cbn [snd]; after_case; repeat match goal with H : l_loop _ = _ |- _ => rewrite H; clear H end; cbn; try done.
  all: repeat match goal with H : l_pass _ = _ |- _ => rewrite H in * | H : l_iq _ = _ |- _ => rewrite H in * | H : l_hq _ = _ |- _ => rewrite H in * end.
  - split; [done|]. by apply idle_places_fst.
  - rewrite map_app. cbn. solve_Permutation.
  - rewrite map_app. cbn. solve_Permutation.
  - cbn. solve_Permutation.
  - cbn. solve_Permutation.
  - exists QIntervals. split; [|done]. solve_Permutation.
  - exists QHosts. split; [|done]. solve_Permutation.
Qed.
Lemma calls_inv hosts tr s : hlsteps (hl_init hosts) tr s →
  NoDup (map fst (places s)) ∧ ∀ i q, open_call i tr = Some q ↔ (i, q) ∈ places s.
Proof.
  revert s. induction tr as [|[t a] tr IH] using rev_ind; intros s H.
  { inversion H; subst. cbn. split; [constructor|]. intros i q. rewrite elem_of_nil. split; [|done]. done. }
  apply hlsteps_snoc in H as (m&H1&H2). specialize (IH m H1) as (Hnd&Hc). apply places_step in H2.
  assert (Hsame : places s ≡ₚ places m → NoDup (map fst (places s)) ∧ ∀ i q, open_call i tr = Some q ↔ (i, q) ∈ places s).
  { intros Hp. split; [by rewrite Hp|]. intros i q. rewrite Hc. by rewrite Hp. }
  destruct a; cbn [snd] in H2; try (setoid_rewrite open_call_snoc; cbn [snd]; by apply Hsame).
  - destruct H2 as [-> Hn]. split; [cbn; by constructor|]. intros j q'. rewrite open_call_snoc. cbn [snd].
    rewrite elem_of_cons. destruct (decide (i = j)) as [->|Hne].
    + split; [intros [= ->]; by left|]. intros [[= ->]|Hin]; [done|]. exfalso. apply Hn. apply elem_of_list_fmap. by exists (j, q').
    + rewrite Hc. split; [by right|]. intros [[= -> ->]|?]; done.
  - destruct H2 as (q&Hp&_). assert (Hnd' := Hnd). rewrite Hp in Hnd'. cbn in Hnd'. inversion Hnd' as [|? ? Hni Hnd'']; subst.
    split; [done|]. intros j q'. rewrite open_call_snoc. cbn [snd].
    destruct (decide (i = j)) as [->|Hne].
    + split; [done|]. intros Hin. exfalso. apply Hni. apply elem_of_list_fmap. by exists (j, q').
    + rewrite Hc. rewrite Hp, elem_of_cons. split; [intros [[= -> ->]|?]; done|by right].
Qed.

Definition reply_ok (s : hl) : Prop :=
  match l_loop s with
  | AReplyI _ out => out = hd_pub (l_hd s)
  | AReplyH _ out => ∃ l, l ≡ₚ map_to_list (hd_status (l_hd s)) ∧ out = map snd l
  | _ => True
  end.
Lemma reply_inv hosts tr s : hlsteps (hl_init hosts) tr s → reply_ok s.
Proof.
  revert s. induction tr as [|[t a] tr IH] using rev_ind; intros s H.
  { inversion H; subst. done. }
  apply hlsteps_snoc in H as (m&H1&H2). specialize (IH m H1). unfold reply_ok in *.
  inversion H2; subst; after_case; repeat match goal with H : l_loop _ = _ |- _ => rewrite H in *; clear H end; cbn; try done.
  by exists l.
Qed.
Lemma thm_answer hosts tr t i a s : hlsteps (hl_init hosts) (tr ++ [(t, HRet i a)]) s →
  ∃ q m, open_call i tr = Some q ∧ hrun (hd_init hosts) (ops tr) (Ok m) ∧
    match q with
    | QIntervals => a = AnsI (hd_pub m)
    | QHosts => ∃ l, l ≡ₚ map_to_list (hd_status m) ∧ a = AnsH (map snd l)
    end.
Proof.
  intros H. apply hlsteps_snoc in H as (m&H1&H2).
  pose proof (calls_inv _ _ _ H1) as [_ Hc]. pose proof (reply_inv _ _ _ H1) as Hr. pose proof (loop_ops _ _ _ H1) as Hops.
  unfold reply_ok in Hr.
  inversion H2; subst.
  - exists QIntervals, (l_hd m). assert (H5 : l_loop m = AReplyI i out) by done. rewrite H5 in *. subst. split; [|split; [by apply Hops|done]].
    apply Hc. unfold places. rewrite H5, !elem_of_app. right. right. right. by left.
  - exists QHosts, (l_hd m). assert (H5 : l_loop m = AReplyH i out) by done. rewrite H5 in *. destruct Hr as (l&Hl&->). split; [|split; [by apply Hops|by exists l]].
    apply Hc. unfold places. rewrite H5, !elem_of_app. right. right. right. by left.
Qed.

(** ** Progress *)
Definition running (s : hl) : Prop := l_loop s ≠ ABye ∧ l_loop s ≠ AGone ∧ l_loop s ≠ ACrash.
(** [s] steps to [s'] at time [t] without help from outside *)
Definition inside (t : Z) (s : hl) (tr : list (Z * hact)) (s' : hl) : Prop :=
  hlsteps s tr s' ∧ Forall (λ a, a.1 = t ∧ internal a.2) tr.
Lemma inside_nil t s : inside t s [] s.
Proof. split; constructor. Qed.
Lemma inside_trans t s tr1 m tr2 s' : inside t s tr1 m → inside t m tr2 s' → inside t s (tr1 ++ tr2) s'.
Proof. intros [H1 H2] [H3 H4]. split; [apply hlsteps_app; eauto|by apply Forall_app]. Qed.
Lemma inside_one t s a s' : hlstep s (t, a) s' → internal a → inside t s [(t, a)] s'.
Proof. intros H1 H2. split; [by apply hlsteps_one|by constructor]. Qed.

Definition same_queues (s s' : hl) : Prop :=
  l_pass s' = l_pass s ∧ l_iq s' = l_iq s ∧ l_hq s' = l_hq s ∧ l_stop s' = l_stop s ∧ l_deb s' = l_deb s.
(** back to the select *)
Lemma to_select t s : running s → (l_loop s = AReq → l_req s < 64) →
  ∃ tr s', inside t s tr s' ∧ l_loop s' = ASel ∧ same_queues s s' ∧
    (∀ i out, l_loop s = AReplyI i out → ∃ a, tr = [(t, HRet i a)]) ∧
    (∀ i out, l_loop s = AReplyH i out → ∃ a, tr = [(t, HRet i a)]).
Proof.
  intros (H1&H2&H3) Hr. destruct (l_loop s) as [| |i out|i out| | |] eqn:E; try done.
  - exists [], s. split; [apply inside_nil|]. repeat split; done.
  - eexists [(t, HReq)], _. split; [apply inside_one; [by apply Hl_req; [|apply Hr]|done]|]. repeat split; done.
  - eexists [(t, HRet i (AnsI out))], _. split; [apply inside_one; [by apply Hl_ret_i|done]|].
    repeat split; try done. intros ? ? [= -> ->]. eauto.
  - eexists [(t, HRet i (AnsH out))], _. split; [apply inside_one; [by apply Hl_ret_h|done]|].
    repeat split; try done. intros ? ? [= -> ->]. eauto.
Qed.
Lemma drain_i t l1 : ∀ s l2, l_loop s = ASel → l_iq s = l1 ++ l2 →
  ∃ tr s', inside t s tr s' ∧ l_loop s' = ASel ∧ l_iq s' = l2 ∧ l_hq s' = l_hq s ∧ l_pass s' = l_pass s.
Proof.
  induction l1 as [|i l1 IH]; intros s l2 E Eq.
  { exists [], s. split; [apply inside_nil|done]. }
  pose proof (Hl_take_i s t i (l1 ++ l2) E Eq) as Hs1.
  set (s1 := HL _ _ _ _ _ _ _ _ _ _ _ _) in Hs1.
  pose proof (Hl_ret_i s1 t i (safe_intervals (l_hd s)) eq_refl) as Hs2.
  set (s2 := HL _ _ _ _ _ _ _ _ _ _ _ _) in Hs2.
  destruct (IH s2 l2 eq_refl eq_refl) as (tr&s'&H1&H2&H3&H4&H5).
  exists ([(t, HTakeI i)] ++ [(t, HRet i (AnsI (safe_intervals (l_hd s))))] ++ tr), s'. split; [|done].
  eapply inside_trans; [by apply inside_one|]. eapply inside_trans; [by apply inside_one|]. done.
Qed.
Lemma drain_h t l1 : ∀ s l2, l_loop s = ASel → l_hq s = l1 ++ l2 →
  ∃ tr s', inside t s tr s' ∧ l_loop s' = ASel ∧ l_hq s' = l2 ∧ l_iq s' = l_iq s ∧ l_pass s' = l_pass s.
Proof.
  induction l1 as [|i l1 IH]; intros s l2 E Eq.
  { exists [], s. split; [apply inside_nil|done]. }
  pose proof (Hl_take_h s t i (l1 ++ l2) (map_to_list (hd_status (l_hd s))) E Eq (Permutation_refl _)) as Hs1.
  set (s1 := HL _ _ _ _ _ _ _ _ _ _ _ _) in Hs1.
  pose proof (Hl_ret_h s1 t i _ eq_refl) as Hs2.
  set (s2 := HL _ _ _ _ _ _ _ _ _ _ _ _) in Hs2.
  destruct (IH s2 l2 eq_refl eq_refl) as (tr&s'&H1&H2&H3&H4&H5).
  eexists ([(t, HTakeH i _)] ++ [(t, HRet i _)] ++ tr), s'. split; [|done].
  eapply inside_trans; [by apply inside_one|]. eapply inside_trans; [by apply inside_one|]. done.
Qed.
(** any waiting handler can be served *)
Lemma serve t s i q : running s → (l_loop s = AReq → l_req s < 64) → (i, q) ∈ places s →
  ∃ tr a s', inside t s (tr ++ [(t, HRet i a)]) s'.
Proof.
  intros Hr Hq Hin. destruct (to_select t s Hr Hq) as (tr0&s0&H0&E0&(Ep&Ei&Eh&_&_)&Hri&Hrh).
  unfold places in Hin. rewrite !elem_of_app in Hin. destruct Hin as [Hin|[Hin|[Hin|Hin]]].
  - apply elem_of_list_split in Hin as (p1&p2&Hp). destruct q.
    + destruct (drain_i t (l_iq s0) s0 [] E0) as (tr1&s1&H1&E1&Eq1&Eh1&Ep1); [by rewrite app_nil_r|].
      pose proof (Hl_queue_i s1 t i p1 p2 ltac:(by rewrite E1) ltac:(by rewrite Ep1, Ep, Hp) ltac:(by rewrite Eq1)) as H2.
      set (s2 := HL _ _ _ _ _ _ _ _ _ _ _ _) in H2.
      pose proof (Hl_take_i s2 t i [] E1 ltac:(cbn; by rewrite Eq1)) as H3.
      set (s3 := HL _ _ _ _ _ _ _ _ _ _ _ _) in H3.
      pose proof (Hl_ret_i s3 t i _ eq_refl) as H4.
      eexists (tr0 ++ tr1 ++ [(t, HQueue i QIntervals)] ++ [(t, HTakeI i)]), _, _. rewrite <-!app_assoc.
      eapply inside_trans; [done|]. eapply inside_trans; [done|]. eapply inside_trans; [by apply inside_one|].
      eapply inside_trans; [by apply inside_one|]. by apply inside_one.
    + destruct (drain_h t (l_hq s0) s0 [] E0) as (tr1&s1&H1&E1&Eq1&Eh1&Ep1); [by rewrite app_nil_r|].
      pose proof (Hl_queue_h s1 t i p1 p2 ltac:(by rewrite E1) ltac:(by rewrite Ep1, Ep, Hp) ltac:(by rewrite Eq1)) as H2.
      set (s2 := HL _ _ _ _ _ _ _ _ _ _ _ _) in H2.
      pose proof (Hl_take_h s2 t i [] _ E1 ltac:(cbn; by rewrite Eq1) (Permutation_refl _)) as H3.
      set (s3 := HL _ _ _ _ _ _ _ _ _ _ _ _) in H3.
      pose proof (Hl_ret_h s3 t i _ eq_refl) as H4.
      eexists (tr0 ++ tr1 ++ [(t, HQueue i QHosts)] ++ [(t, HTakeH i _)]), _, _. rewrite <-!app_assoc.
      eapply inside_trans; [done|]. eapply inside_trans; [done|]. eapply inside_trans; [by apply inside_one|].
      eapply inside_trans; [by apply inside_one|]. by apply inside_one.
  - apply elem_of_list_fmap in Hin as (j&[= -> ->]&Hin). apply elem_of_list_split in Hin as (p1&p2&Hp).
    destruct (drain_i t p1 s0 (j :: p2) E0) as (tr1&s1&H1&E1&Eq1&Eh1&Ep1); [by rewrite Ei, Hp|].
    pose proof (Hl_take_i s1 t j p2 E1 Eq1) as H3.
    set (s3 := HL _ _ _ _ _ _ _ _ _ _ _ _) in H3.
    pose proof (Hl_ret_i s3 t j _ eq_refl) as H4.
    eexists (tr0 ++ tr1 ++ [(t, HTakeI j)]), _, _. rewrite <-!app_assoc.
    eapply inside_trans; [done|]. eapply inside_trans; [done|].
    eapply inside_trans; [by apply inside_one|]. by apply inside_one.
  - apply elem_of_list_fmap in Hin as (j&[= -> ->]&Hin). apply elem_of_list_split in Hin as (p1&p2&Hp).
    destruct (drain_h t p1 s0 (j :: p2) E0) as (tr1&s1&H1&E1&Eq1&Eh1&Ep1); [by rewrite Eh, Hp|].
    pose proof (Hl_take_h s1 t j p2 _ E1 Eq1 (Permutation_refl _)) as H3.
    set (s3 := HL _ _ _ _ _ _ _ _ _ _ _ _) in H3.
    pose proof (Hl_ret_h s3 t j _ eq_refl) as H4.
    eexists (tr0 ++ tr1 ++ [(t, HTakeH j _)]), _, _. rewrite <-!app_assoc.
    eapply inside_trans; [done|]. eapply inside_trans; [done|].
    eapply inside_trans; [by apply inside_one|]. by apply inside_one.
  - destruct (l_loop s) as [| |j out|j out| | |] eqn:E; cbn in Hin; try (by apply elem_of_nil in Hin).
    + apply elem_of_list_singleton in Hin as [= -> _]. destruct (Hri j out eq_refl) as (a&->). exists [], a, s0. done.
    + apply elem_of_list_singleton in Hin as [= -> _]. destruct (Hrh j out eq_refl) as (a&->). exists [], a, s0. done.
Qed.

(** ** Stop *)
Lemma gone_step s a s' : l_loop s = AGone → hlstep s a s' → l_loop s' = AGone ∧ l_hd s' = l_hd s ∧
  match a.2 with HTick _ | HTakeResp _ _ _ _ | HTakeNil _ _ | HFire _ | HRet _ _ | HTakeI _ | HTakeH _ _ | HStopTake _ | HStopRet _ | HReq => False | _ => True end.
Proof. intros E H. inversion H; subst; cbn; try congruence; done. Qed.
Lemma gone_forever s tr s' : l_loop s = AGone → hlsteps s tr s' → l_loop s' = AGone ∧ l_hd s' = l_hd s ∧
  ops tr = [] ∧ (∀ t i a, (t, HRet i a) ∉ tr) ∧ (∀ t i, (t, HStopRet i) ∉ tr).
Proof.
  intros E H. induction H as [s|s a s1 tr s' H1 H2 IH].
  { repeat split; try done. all: intros; by apply not_elem_of_nil. }
  destruct (gone_step _ _ _ E H1) as (E1&E2&Ha). destruct (IH E1) as (H3&H4&H5&H6&H7).
  split; [done|]. split; [congruence|]. destruct a as [t a]. cbn in Ha.
  split; [|split; intros t' i; [intros x|]; rewrite elem_of_cons; (intros [[= -> <-]|Hin]; [done|]); [by eapply H6|by eapply H7]].
  unfold ops in *. cbn. destruct a; cbn; done.
Qed.
Lemma stop_taken_loop hosts tr s : hlsteps (hl_init hosts) tr s → stop_taken tr ↔ l_loop s = ABye ∨ l_loop s = AGone.
Proof.
  revert s. induction tr as [|[t a] tr IH] using rev_ind; intros s H.
  { inversion H; subst. split; [intros (?&?&Hin); by apply elem_of_nil in Hin|]. cbn. intros [?|?]; done. }
  apply hlsteps_snoc in H as (m&H1&H2). specialize (IH m H1).
  assert (Hst : stop_taken (tr ++ [(t, a)]) ↔ stop_taken tr ∨ ∃ i, a = HStopTake i).
  { unfold stop_taken. setoid_rewrite elem_of_app. setoid_rewrite elem_of_list_singleton. split.
    - intros (t'&i&[Hin|[= -> <-]]); [left; eauto|right; eauto].
    - intros [(t'&i&Hin)|(i&->)]; [exists t', i; by left|exists t, i; by right]. }
  rewrite Hst, IH.
  inversion H2; subst; after_case; repeat match goal with H : l_loop _ = _ |- _ => rewrite H in *; clear H end; cbn; naive_solver.
Qed.
Lemma flag_inv hosts tr s : hlsteps (hl_init hosts) tr s → l_flag s = true ↔ ∃ t i, (t, HStop i) ∈ tr.
Proof.
  revert s. induction tr as [|[t a] tr IH] using rev_ind; intros s H.
  { inversion H; subst. split; [done|intros (?&?&Hin); by apply elem_of_nil in Hin]. }
  apply hlsteps_snoc in H as (m&H1&H2). specialize (IH m H1).
  assert (Hst : (∃ t' i, (t', HStop i) ∈ tr ++ [(t, a)]) ↔ (∃ t' i, (t', HStop i) ∈ tr) ∨ ∃ i, a = HStop i).
  { setoid_rewrite elem_of_app. setoid_rewrite elem_of_list_singleton. split.
    - intros (t'&i&[Hin|[= -> <-]]); [left; eauto|right; eauto].
    - intros [(t'&i&Hin)|(i&->)]; [exists t', i; by left|exists t, i; by right]. }
  rewrite Hst, <-IH.
  inversion H2; subst; after_case; try (split; [by left|]; intros [?|(?&?)]; done).
  split; [right; eauto|done].
Qed.
Lemma thm_no_call_after_stop hosts tr1 t i tr2 s t' j q : hlsteps (hl_init hosts) (tr1 ++ (t, HStop i) :: tr2) s → (t', HCall j q) ∉ tr2.
Proof.
  intros H Hin. apply elem_of_list_split in Hin as (tr3&tr4&->).
  rewrite app_comm_cons, app_assoc in H. apply hlsteps_app in H as (m&H1&H2).
  inversion H2 as [|? ? s1 ? ? H3 H4]; subst.
  assert (l_flag m = true). { eapply flag_inv; [done|]. exists t, i. rewrite elem_of_app. right. by left. }
  inversion H3; subst. congruence.
Qed.
Lemma thm_after_stop hosts tr1 t i tr2 s : hlsteps (hl_init hosts) (tr1 ++ (t, HStopRet i) :: tr2) s →
  ops tr2 = [] ∧ (∀ t i a, (t, HRet i a) ∉ tr2) ∧ (∀ t i, (t, HStopRet i) ∉ tr2).
Proof.
  intros H. apply hlsteps_app in H as (m&H1&H2). inversion H2 as [|? ? s1 ? ? H3 H4]; subst.
  inversion H3; subst. eapply gone_forever in H4 as (_&_&G5&G6&G7); done.
Qed.
Lemma thm_stop_returns hosts tr t0 i s t : hlsteps (hl_init hosts) (tr ++ [(t0, HStop i)]) s →
  ¬ stop_taken tr → l_loop s ≠ ACrash → taken_since_idle tr < 64 →
  ∃ tr' s', hlsteps s (tr' ++ [(t, HStopTake i); (t, HStopRet i)]) s' ∧ Forall (λ a, a.1 = t ∧ internal a.2) tr'.
Proof.
  intros H Hst Hc Hlt. pose proof (req_bound _ _ _ H) as [_ Hb]. rewrite fold_taken_snoc in Hb. cbn in Hb.
  apply stop_taken_loop in H as Hst'.
  assert (Hst2 : ¬ stop_taken (tr ++ [(t0, HStop i)])).
  { intros (t'&j&Hin). rewrite elem_of_app, elem_of_list_singleton in Hin. destruct Hin as [Hin|[=]]. apply Hst. exists t', j. done. }
  assert (Hin : i ∈ l_stop s). { apply hlsteps_snoc in H as (m&_&H). inversion H; subst. cbn. left. }
  destruct (to_select t s) as (tr0&s0&[H0 F0]&E0&(_&_&_&Es&_)&_&_).
  { split; [|split]; [intros E; apply Hst2, Hst'; by left|intros E; apply Hst2, Hst'; by right|done]. }
  { intros E. rewrite E in Hb. cbn in Hb. lia. }
  pose proof (Hl_stop_take s0 t i E0 ltac:(by rewrite Es)) as H1.
  set (s1 := HL _ _ _ _ _ _ _ _ _ _ _ _) in H1.
  pose proof (Hl_stop_ret s1 t i eq_refl ltac:(left)) as H2.
  eexists tr0, _. split; [|done]. apply hlsteps_app. exists s0. split; [done|]. econstructor; [done|]. by apply hlsteps_one.
Qed.
