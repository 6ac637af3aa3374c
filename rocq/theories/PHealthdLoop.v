(** * Proofs about healthd's goroutines *)
From Verif Require Import SHealthdLoop PHealthd PHealthd2.

(** ** The debouncer *)
Lemma dsteps_app th tr1 : ∀ s tr2 s', dsteps th s (tr1 ++ tr2) s' ↔ ∃ m, dsteps th s tr1 m ∧ dsteps th m tr2 s'.
Proof.
  induction tr1 as [|a tr1 IH]; intros s tr2 s'; cbn [app].
  - split; [intros H; exists s; split; [constructor|done]|]. intros (m&H1&H2). by inversion H1; subst.
  - split.
    + intros H. inversion H as [|? ? s1 ? ? H1 H2]; subst. apply IH in H2 as (m&H2&H3). exists m. split; [|done]. by econstructor.
    + intros (m&H&H3). inversion H as [|? ? s1 ? ? H1 H2]; subst. econstructor; [done|]. apply IH. eauto.
Qed.
Lemma dsteps_snoc th s tr a s' : dsteps th s (tr ++ [a]) s' ↔ ∃ m, dsteps th s tr m ∧ dstep th m a s'.
Proof.
  rewrite dsteps_app. split; intros (m&H1&H2); exists m; (split; [done|]).
  - inversion H2 as [|? ? s1 ? ? H3 H4]; subst. by inversion H4; subst.
  - econstructor; [done|constructor].
Qed.
Lemma pending_snoc tr a : pending (tr ++ [a]) = match a.2 with DTake => pending tr ++ [a.1] | DSent => [] | _ => pending tr end.
Proof. unfold pending. by rewrite fold_left_app. Qed.
Lemma pending_in tr t : t ∈ pending tr → t ∈ map fst tr.
Proof.
  revert t. induction tr as [|[u a] tr IH] using rev_ind; intros t; [intros H; by apply elem_of_nil in H|].
  rewrite pending_snoc, map_app, elem_of_app. cbn. destruct a; intros H.
  - apply elem_of_app in H as [H|H]; [left; by apply IH|by right].
  - left. by apply IH.
  - left. by apply IH.
  - by apply elem_of_nil in H.
Qed.
Lemma since_spec th t o : - 2 ^ 63 ≤ th < 2 ^ 63 - 1 → (th <? since t o) = (th <? t - o).
Proof.
  intros H. unfold since. destruct (Z.ltb_spec (t - o) (- 2 ^ 63)).
  - destruct (Z.ltb_spec th (- 2 ^ 63)); [lia|]. symmetry. apply Z.ltb_ge. lia.
  - destruct (Z.ltb_spec (2 ^ 63 - 1) (t - o)); [|done].
    destruct (Z.ltb_spec th (2 ^ 63 - 1)); [|lia]. symmetry. apply Z.ltb_lt. lia.
Qed.

(** what the state says about the past *)
Definition dinv (th : Z) (tr : list (Z * dact)) (s : dstate) : Prop :=
  match s with
  | DTop o => o = default 0 (head (pending tr)) ∧ (tr = [] ∨ ∃ tr' a, tr = tr' ++ [a] ∧ (a.2 = DCheck ∨ a.2 = DSent))
  | DChk o => o = default 0 (head (pending tr)) ∧ ∃ tr' a, tr = tr' ++ [a] ∧ (a.2 = DTake ∨ a.2 = DIdle)
  | DSnd o => o = default 0 (head (pending tr)) ∧ ∃ tr' t, tr = tr' ++ [(t, DCheck)] ∧ overdue th tr t
  end.
Lemma dsteps_inv th tr s : - 2 ^ 63 ≤ th < 2 ^ 63 - 1 → (∀ t, t ∈ map fst tr → 0 < t) → dsteps th (DTop 0) tr s → dinv th tr s.
Proof.
  intros Hth. revert s. induction tr as [|a tr IH] using rev_ind; intros s Hpos H.
  { inversion H; subst. split; [done|by left]. }
  apply dsteps_snoc in H as (m&H1&H2).
  assert (Hpos' : ∀ t, t ∈ map fst tr → 0 < t) by (intros t Ht; apply Hpos; rewrite map_app, elem_of_app; by left).
  assert (Ha : 0 < a.1) by (apply Hpos; rewrite map_app, elem_of_app; right; by left).
  specialize (IH m Hpos' H1).
  assert (Hp : ∀ r, r ∈ pending tr → 0 < r) by (intros r Hr; apply Hpos'; by apply pending_in).
  inversion H2 as [o t Hm Ha' Hs|o t Hm Ha' Hs|o t Hm Ha' Hs|o t Hm Ha' Hs]; subst; cbn in IH, Ha.
  - destruct IH as [-> _]. split; [|by eexists _, _; eauto].
    rewrite pending_snoc. cbn. destruct (pending tr) as [|r rest] eqn:E; [done|]. cbn.
    specialize (Hp r). destruct (Z.eqb_spec r 0); [|done]. subst. exfalso. assert (0 < 0); [|lia]. apply Hp. left.
  - destruct IH as [-> _]. split; [|by eexists _, _; eauto]. by rewrite pending_snoc.
  - destruct IH as [-> _]. unfold since_oldest. rewrite since_spec by done.
    destruct (pending tr) as [|r rest] eqn:E; cbn [head default from_option id].
    { cbn. rewrite pending_snoc. cbn. rewrite E. split; [done|]. right. by eexists _, _; eauto. }
    assert (0 < r) by (apply Hp; left).
    destruct (Z.eqb_spec r 0); [lia|]. cbn [negb andb].
    destruct (Z.ltb_spec th (t - r)); cbn [dinv]; rewrite pending_snoc; cbn [snd]; rewrite E; (split; [done|]).
    + eexists _, t. split; [done|]. exists r, rest. rewrite pending_snoc. cbn [snd]. split; [done|lia].
    + right. by eexists _, _; eauto.
  - split; [|right; by eexists _, _; eauto]. by rewrite pending_snoc.
Qed.

Lemma sorted_snoc tr (a : Z * dact) t : StronglySorted Z.le (map fst (tr ++ [a])) → t ∈ map fst tr → t ≤ a.1.
Proof.
  induction tr as [|b tr IH]; cbn; [intros _ H; by apply elem_of_nil in H|].
  intros Hs Ht. inversion Hs as [|? ? Hs' Hf]; subst. rewrite map_app, Forall_app in Hf. destruct Hf as [_ Hf].
  apply elem_of_cons in Ht as [->|Ht]; [by inversion Hf|by apply IH].
Qed.
Lemma sorted_prefix {A} (tr1 tr2 : list (Z * A)) : StronglySorted Z.le (map fst (tr1 ++ tr2)) → StronglySorted Z.le (map fst tr1).
Proof.
  rewrite map_app. induction (map fst tr1) as [|x l IH]; cbn; [constructor|]. intros H. inversion H as [|? ? H1 H2]; subst.
  constructor; [auto|]. rewrite Forall_app in H2. by destruct H2.
Qed.
Lemma clock_prefix {A} (tr1 tr2 : list (Z * A)) : clock_runs (tr1 ++ tr2) → clock_runs tr1.
Proof. intros [H1 H2]. split; [by eapply sorted_prefix|]. intros t Ht. apply H2. rewrite map_app, elem_of_app. by left. Qed.

(** each trigger serves a request more than [th] old *)
Lemma thm_deb_served th tr t s : 0 ≤ th < 2 ^ 63 - 1 → clock_runs (tr ++ [(t, DSent)]) →
  dsteps th (DTop 0) (tr ++ [(t, DSent)]) s → overdue th tr t.
Proof.
  intros Hth [Hs Hpos] H. apply dsteps_snoc in H as (m&H1&H2). inversion H2; subst.
  apply dsteps_inv in H1; [|lia|intros u Hu; apply Hpos; rewrite map_app, elem_of_app; by left].
  destruct H1 as (_&tr'&t'&->&r&rest&E&Hlt). exists r, rest. split; [done|].
  assert (t' ≤ t); [|lia]. eapply (sorted_snoc _ (t, DSent)); [exact Hs|]. rewrite map_app, elem_of_app. right. by left.
Qed.
Lemma pending_after tr1 t tr2 r : r ∈ pending (tr1 ++ (t, DSent) :: tr2) → r ∈ map fst tr2.
Proof.
  induction tr2 as [|a tr2 IH] using rev_ind.
  - rewrite (pending_snoc tr1 (t, DSent)). cbn. done.
  - rewrite app_comm_cons, app_assoc, pending_snoc, map_app, elem_of_app. destruct a as [u []]; cbn; intros H.
    + apply elem_of_app in H as [H|H]; [left; by apply IH|by right].
    + left. by apply IH.
    + left. by apply IH.
    + by apply elem_of_nil in H.
Qed.
Lemma thm_deb_spacing th tr1 t1 tr2 t2 s : 0 ≤ th < 2 ^ 63 - 1 → clock_runs (tr1 ++ (t1, DSent) :: tr2 ++ [(t2, DSent)]) →
  dsteps th (DTop 0) (tr1 ++ (t1, DSent) :: tr2 ++ [(t2, DSent)]) s → t1 + th < t2.
Proof.
  intros Hth Hc H. rewrite app_comm_cons, app_assoc in Hc, H.
  pose proof (thm_deb_served th _ t2 s Hth Hc H) as (r&rest&E&Hlt).
  assert (Hr : r ∈ map fst tr2). { eapply (pending_after tr1 t1). rewrite E. left. }
  assert (t1 ≤ r); [|lia]. apply clock_prefix in Hc. destruct Hc as [Hs _]. rewrite map_app in Hs. cbn in Hs.
  clear -Hs Hr. induction (map fst tr1) as [|x l IH]; cbn in Hs; [|inversion Hs; subst; auto].
  inversion Hs as [|? ? _ Hf]; subst. rewrite Forall_forall in Hf. by apply Hf.
Qed.
(** the outcome of every check *)
Lemma thm_deb_check th tr t a s : 0 ≤ th < 2 ^ 63 - 1 → clock_runs (tr ++ [(t, DCheck); a]) →
  dsteps th (DTop 0) (tr ++ [(t, DCheck); a]) s → a.2 = DSent ↔ overdue th tr t.
Proof.
  intros Hth Hc H. replace (tr ++ [(t, DCheck); a]) with ((tr ++ [(t, DCheck)]) ++ [a]) in * by (by rewrite <-app_assoc).
  apply dsteps_snoc in H as (m&H1&H2). apply clock_prefix in Hc as Hc'.
  pose proof (dsteps_inv th _ _ ltac:(lia) (proj2 Hc') H1) as Hi.
  apply dsteps_snoc in H1 as (m0&H0&H1). apply clock_prefix in Hc' as Hc0.
  pose proof (dsteps_inv th _ _ ltac:(lia) (proj2 Hc0) H0) as Hi0.
  inversion H1 as [| |o t' E1 E2 E3|]; subst. destruct Hi0 as [Eo _].
  unfold since_oldest in *. rewrite since_spec in * by lia.
  assert (Hover : overdue th tr t ↔ negb (o =? 0) && (th <? t - o) = true).
  { unfold overdue. destruct (pending tr) as [|r rest] eqn:E; cbn in Eo; subst o.
    - split; [by intros (?&?&?&_)|done].
    - assert (0 < r). { apply (proj2 Hc0), pending_in. rewrite E. left. }
      destruct (Z.eqb_spec r 0); [lia|]. cbn. rewrite Z.ltb_lt. split; [intros (?&?&[= <- <-]&?); lia|]. intros. exists r, rest. split; [done|lia]. }
  rewrite Hover. destruct (negb (o =? 0) && (th <? t - o)).
  - split; [done|]. intros _. by inversion H2.
  - split; [|done]. intros Ha. destruct a as [u d]. cbn in Ha. subst d. inversion H2.
Qed.
(** every request received or pause is followed by a check, and every check
    that does not trigger by the next look for a request *)
Lemma thm_deb_order th tr a b s : - 2 ^ 63 ≤ th < 2 ^ 63 - 1 → (∀ t, t ∈ map fst (tr ++ [a; b]) → 0 < t) → dsteps th (DTop 0) (tr ++ [a; b]) s →
  match a.2 with DTake | DIdle => b.2 = DCheck | DCheck => b.2 ≠ DCheck | DSent => b.2 = DTake ∨ b.2 = DIdle end.
Proof.
  intros Hth Hp H. replace (tr ++ [a; b]) with ((tr ++ [a]) ++ [b]) in * by (by rewrite <-app_assoc).
  apply dsteps_snoc in H as (m&H1&H2). apply dsteps_snoc in H1 as (m0&_&H1).
  inversion H1; subst; cbn.
  - by inversion H2.
  - by inversion H2.
  - case_match; inversion H2; subst; done.
  - inversion H2; subst; auto.
Qed.

(** ** Traces of the whole system *)
Lemma hlsteps_app tr1 : ∀ s tr2 s', hlsteps s (tr1 ++ tr2) s' ↔ ∃ m, hlsteps s tr1 m ∧ hlsteps m tr2 s'.
Proof.
  induction tr1 as [|a tr1 IH]; intros s tr2 s'; cbn [app].
  - split; [intros H; exists s; split; [constructor|done]|]. intros (m&H1&H2). by inversion H1; subst.
  - split.
    + intros H. inversion H as [|? ? s1 ? ? H1 H2]; subst. apply IH in H2 as (m&H2&H3). exists m. split; [|done]. by econstructor.
    + intros (m&H&H3). inversion H as [|? ? s1 ? ? H1 H2]; subst. econstructor; [done|]. apply IH. eauto.
Qed.
Lemma hlsteps_snoc s tr a s' : hlsteps s (tr ++ [a]) s' ↔ ∃ m, hlsteps s tr m ∧ hlstep m a s'.
Proof.
  rewrite hlsteps_app. split; intros (m&H1&H2); exists m; (split; [done|]).
  - inversion H2 as [|? ? s1 ? ? H3 H4]; subst. by inversion H4; subst.
  - econstructor; [done|constructor].
Qed.
Lemma hlsteps_one s a s' : hlstep s a s' → hlsteps s [a] s'.
Proof. intros H. econstructor; [done|constructor]. Qed.

Lemma omap_snoc {A B} (f : A → option B) l x : omap f (l ++ [x]) = omap f l ++ match f x with Some y => [y] | None => [] end.
Proof. rewrite omap_app. cbn. by destruct (f x). Qed.

(** the debouncer inside the system *)
Lemma deb_projection hosts tr s : hlsteps (hl_init hosts) tr s → dsteps threshold (DTop 0) (deb_part tr) (l_deb s).
Proof.
  revert s. induction tr as [|a tr IH] using rev_ind; intros s H.
  { inversion H; subst. constructor. }
  apply hlsteps_snoc in H as (m&H1&H2). specialize (IH m H1). unfold deb_part. rewrite omap_snoc.
  change (omap _ tr) with (deb_part tr).
  inversion H2; subst; cbn [fst snd]; rewrite ?app_nil_r; unfold after;
    try (match goal with |- context [match ?r with Ok _ => _ | Crash _ => _ end] => destruct r end); cbn; try done.
  all: apply dsteps_snoc; eauto.
Qed.
Lemma deb_times tr t : t ∈ map fst (deb_part tr) → t ∈ map fst tr.
Proof.
  unfold deb_part. induction tr as [|[u a] tr IH]; cbn; [done|].
  destruct a; cbn; rewrite ?elem_of_cons; intuition.
Qed.
Lemma deb_clock tr : clock_runs tr → clock_runs (deb_part tr).
Proof.
  intros [H1 H2]. split; [|intros t Ht; by apply H2, deb_times].
  clear H2. induction tr as [|[u a] tr IH]; [constructor|]. cbn in H1. inversion H1 as [|? ? H3 H4]; subst.
  specialize (IH H3).
  assert (Hf : Forall (Z.le u) (map fst (deb_part tr))).
  { apply Forall_forall. intros t Ht. rewrite Forall_forall in H4. by apply H4, deb_times. }
  unfold deb_part in *. destruct a; cbn; try done; by constructor.
Qed.
Lemma deb_part_app tr1 tr2 : deb_part (tr1 ++ tr2) = deb_part tr1 ++ deb_part tr2.
Proof. apply omap_app. Qed.
Lemma threshold_range : 0 ≤ threshold < 2 ^ 63 - 1.
Proof. unfold threshold. lia. Qed.

Lemma thm_loop_spacing hosts tr1 t1 o1 tr2 t2 o2 s :
  clock_runs (tr1 ++ (t1, HFire o1) :: tr2 ++ [(t2, HFire o2)]) →
  hlsteps (hl_init hosts) (tr1 ++ (t1, HFire o1) :: tr2 ++ [(t2, HFire o2)]) s → t1 + threshold < t2.
Proof.
  intros Hc H. apply deb_projection in H. apply deb_clock in Hc. rewrite deb_part_app in *. cbn in *.
  change (omap _ (tr2 ++ _)) with (deb_part (tr2 ++ [(t2, HFire o2)])) in *. rewrite deb_part_app in *. cbn in *.
  eapply thm_deb_spacing; [apply threshold_range|exact Hc|exact H].
Qed.
Lemma thm_loop_served hosts tr t o s :
  clock_runs (tr ++ [(t, HFire o)]) → hlsteps (hl_init hosts) (tr ++ [(t, HFire o)]) s → overdue threshold (deb_part tr) t.
Proof.
  intros Hc H. apply deb_projection in H. apply deb_clock in Hc. rewrite deb_part_app in *. cbn in *.
  eapply thm_deb_served; [apply threshold_range|exact Hc|exact H].
Qed.

(** ** The operations of the loop *)
Lemma loop_ops hosts tr s : hlsteps (hl_init hosts) tr s → l_loop s ≠ ACrash → hrun (hd_init hosts) (ops tr) (Ok (l_hd s)).
Proof.
  revert s. induction tr as [|a tr IH] using rev_ind; intros s H Hs.
  { inversion H; subst. constructor. }
  apply hlsteps_snoc in H as (m&H1&H2). specialize (IH m H1). unfold ops. rewrite omap_snoc.
  change (omap _ tr) with (ops tr).
  inversion H2; subst; cbn [snd] in *; rewrite ?app_nil_r; unfold after in *; cbn in *.
  all: try (match goal with |- context [l_hd (match ?r with Ok _ => _ | Crash _ => _ end)] => destruct r as [h|] eqn:Er; [|done] end); cbn.
  all: try (apply hrun_snoc; exists (l_hd m); split; [apply IH; congruence|]; split; done).
  all: try (apply IH; congruence).
Qed.
Lemma loop_crash hosts tr s : hlsteps (hl_init hosts) tr s → l_loop s = ACrash →
  ∃ why, hrun (hd_init hosts) (ops tr) (Crash why).
Proof.
  destruct tr as [|a tr _] using rev_ind; intros H Hs.
  { inversion H; subst. done. }
  apply hlsteps_snoc in H as (m&H1&H2). pose proof (loop_ops _ _ _ H1) as Hrun.
  assert (Happ : ∀ op tr' s0, hrun s0 tr' (Ok (l_hd m)) → hop_ok (l_hd m) op → ∀ why, hstep (l_hd m) op = Crash why → hrun s0 (tr' ++ [op]) (Crash why)).
  { intros op tr'. induction tr' as [|op' tr' IH]; intros s0 Hr Ho why Hw.
    - inversion Hr; subst. by constructor.
    - inversion Hr; subst. cbn. econstructor; [done|done|]. by apply IH. }
  unfold ops. rewrite omap_snoc. change (omap _ tr) with (ops tr).
  inversion H2; subst; cbn [snd] in *; unfold after in *; cbn in *; try congruence.
  all: match goal with H : l_loop (match ?r with Ok _ => _ | Crash _ => _ end) = _ |- _ => destruct r as [h|why] eqn:Er; [done|] end.
  all: exists why; apply Happ; [apply Hrun; congruence|done|done].
Qed.
