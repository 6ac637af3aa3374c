(** * Key/values by history (C02) *)
From Verif Require Import SHealth2 PHealth PHealth2 PHealth3.

Inductive role := RS (s : nat) | RJ (j : nat) | RM.
Definition holds (w : world) (r : role) (l : nat) : Prop :=
  match r with
  | RS s => ∃ st, w_streams w !! s = Some st ∧ st_kvs st = Some l
  | RJ j => ∃ jb, w_jobs w !! j = Some jb ∧ jb_kvs jb = Some l
  | RM => l ∈ w_mine w
  end.
Definition sep (w : world) : Prop := ∀ r r' l, holds w r l → holds w r' l → r = r'.
Definition content (w : world) (r : role) : gmap string string :=
  match r with
  | RS s => match w_streams w !! s with Some st => kvs w (st_kvs st) | None => ∅ end
  | RJ j => match w_jobs w !! j with Some jb => kvs w (jb_kvs jb) | None => ∅ end
  | RM => ∅
  end.
Definition sets_of (r : role) (a : api) : option (string * string) :=
  match r with RS s => stream_sets s a | RJ j => job_sets j a | RM => None end.
Definition put (x : option (string * string)) (m : gmap string string) : gmap string string :=
  match x with Some (k, v) => <[k := v]> m | None => m end.

Lemma content_none w r : (∀ l, ¬ holds w r l) → content w r = ∅.
Proof.
  intros H. destruct r; cbn in *; [| |done].
  - destruct (w_streams w !! s) as [[x [l|]]|] eqn:E; [|done|done]. exfalso. apply (H l). eauto.
  - destruct (w_jobs w !! j) as [[x y [l|] z]|] eqn:E; [|done|done]. exfalso. apply (H l). eauto.
Qed.
Lemma content_holds w r l : r ≠ RM → holds w r l → content w r = kvs w (Some l).
Proof. intros Hr H. destruct r; cbn in *; [| |done]; destruct H as (x&->&->); done. Qed.
Lemma holds_dec w r : r ≠ RM → (∃ l, holds w r l) ∨ (∀ l, ¬ holds w r l).
Proof.
  intros Hr. destruct r; cbn; [| |done].
  - destruct (w_streams w !! s) as [[x [l|]]|]; [left; eexists l, _; done|right; intros l (?&[= <-]&?); done|right; intros l (?&?&?); done].
  - destruct (w_jobs w !! j) as [[x y [l|] z]|]; [left; eexists l, _; done|right; intros l (?&[= <-]&?); done|right; intros l (?&?&?); done].
Qed.
Lemma holds_lt w r l : wf w → holds w r l → (l < w_next w)%nat.
Proof.
  intros Hw H. destruct r; cbn in H.
  - destruct H as (st&H1&H2). destruct (wf_streams w Hw _ _ H1) as [_ H]. destruct (H _ H2) as [m Hm]. by eapply wf_maps.
  - destruct H as (st&H1&H2). destruct (wf_jobs w Hw _ _ H1) as [_ H]. destruct (H _ H2) as [m Hm]. by eapply wf_maps.
  - destruct (wf_mine w Hw _ H) as [m Hm]. by eapply wf_maps.
Qed.
#[global] Instance role_eq_dec : EqDecision role.
Proof. solve_decision. Defined.
(** a step that leaves holders alone *)
Lemma same_holders w w' : sep w → (∀ r l, holds w' r l ↔ holds w r l) →
  (∀ r l, holds w r l → kvs w' (Some l) = kvs w (Some l)) →
  sep w' ∧ ∀ r, content w' r = content w r.
Proof.
  intros Hs Hh Hk. split.
  - intros r r' l H1%Hh H2%Hh. by eapply Hs.
  - intros r. destruct (decide (r = RM)) as [->|Hr]; [done|]. destruct (holds_dec w r Hr) as [[l H]|H].
    + rewrite (content_holds w' r l), (content_holds w r l); [by eapply Hk|done|done|done|by apply Hh].
    + rewrite !content_none; [done|done|]. intros l Hl%Hh. by eapply H.
Qed.
Lemma kvs_map_set w l k v l' : kvs (map_set w l k v) (Some l') = if decide (l' = l) then <[k := v]> (kvs w (Some l)) else kvs w (Some l').
Proof. unfold kvs, map_set; cbn. case_decide; [subst; by rewrite lookup_insert|by rewrite lookup_insert_ne]. Qed.
(** setting a key in the map of [r0] *)
Lemma set_holders w r0 l0 k v : sep w → holds w r0 l0 → r0 ≠ RM →
  sep (map_set w l0 k v) ∧ ∀ r, content (map_set w l0 k v) r = if decide (r = r0) then <[k := v]> (content w r) else content w r.
Proof.
  intros Hs H0 Hr0. assert (Hh : ∀ r l, holds (map_set w l0 k v) r l ↔ holds w r l) by (by intros []). split.
  - intros r r' l H1%Hh H2%Hh. by eapply Hs.
  - intros r. case_decide as Hr.
    + subst. rewrite (content_holds _ r0 l0), (content_holds w r0 l0), kvs_map_set, decide_True; try done.
    + destruct (decide (r = RM)) as [->|Hm]; [done|]. destruct (holds_dec w r Hm) as [[l H]|H].
      * rewrite (content_holds _ r l), (content_holds w r l), kvs_map_set, decide_False; try done. intros ->. apply Hr. by eapply Hs.
      * rewrite !content_none; [done|done|]. intros l Hl%Hh. by eapply H.
Qed.
(** giving [r0] a new map *)
Lemma new_holder w w' r0 : wf w → sep w → r0 ≠ RM → (∀ l, ¬ holds w r0 l) → 
  (∀ r l, holds w' r l ↔ holds w r l ∨ r = r0 ∧ l = w_next w) → 
  (∀ l, kvs w' (Some l) = if decide (l = w_next w) then ∅ else kvs w (Some l)) →
  sep w' ∧ holds w' r0 (w_next w) ∧ ∀ r, content w' r = content w r.
Proof.
  intros Hw Hs Hr0 Hn Hh Hk. split_and!.
  - intros r r' l [H1|[-> ->]]%Hh [H2|[-> E]]%Hh; [by eapply Hs| | |done].
    + subst. apply (holds_lt _ _ _ Hw) in H1. lia.
    + apply (holds_lt _ _ _ Hw) in H2. lia.
  - apply Hh. by right.
  - intros r. destruct (decide (r = RM)) as [->|Hm]; [done|]. destruct (decide (r = r0)) as [->|Hr].
    + rewrite (content_holds w' r0 (w_next w)), Hk, decide_True; [|done|done|apply Hh; by right]. by rewrite (content_none w).
    + destruct (holds_dec w r Hm) as [[l H]|H].
      * rewrite (content_holds w' r l), (content_holds w r l), Hk; [|done|done|done|apply Hh; by left]. rewrite decide_False; [done|].
        intros ->. apply (holds_lt _ _ _ Hw) in H. lia.
      * rewrite !content_none; [done|done|]. intros l [Hl|[-> _]]%Hh; [by eapply H|done].
Qed.

Lemma step_content w a w' : wf w → sep w → api_step w a = Ok w' → sep w' ∧ ∀ r, content w' r = put (sets_of r a) (content w r).
Proof.
  intros Hw Hs Hstep.
  assert (Hno : (∀ r, sets_of r a = None) → sep w' ∧ (∀ r, content w' r = content w r) → sep w' ∧ ∀ r, content w' r = put (sets_of r a) (content w r)).
  { intros Hn [H1 H2]. split; [done|]. intros r. by rewrite Hn, H2. }
  destruct (emission a) as [[j inst]|] eqn:He.
  { apply Hno; [by destruct a; destruct r|]. destruct (emission_inv _ _ _ _ _ He Hstep) as (jb&st&Hj&Hst&->).
    destruct (emission_quiet w a st jb) as [Q1 Q2 Q3 Q4 Q5 _]. apply same_holders; [done| |].
    - intros r l. destruct r; cbn; by rewrite ?Q3, ?Q4, ?Q5.
    - intros r l Hl. unfold kvs. rewrite Q2; [done|]. by eapply holds_lt. }
  destruct a; cbn in He; try done; cbn [api_step] in Hstep.
  - apply Hno; [by intros []|]. injection Hstep as <-. apply same_holders; [done| |done].
    intros r l. destruct r; cbn; [| |done].
    + destruct (decide (s = w_next w)) as [->|].
      * rewrite lookup_insert. split; [intros (?&[= <-]&?); done|]. intros (st&H&_). apply (wf_streams _ Hw) in H as [H _]. lia.
      * by rewrite lookup_insert_ne.
    + destruct (decide (j = S (w_next w))) as [->|].
      * rewrite lookup_insert. split; [intros (?&[= <-]&?); done|]. intros (st&H&_). apply (wf_jobs _ Hw) in H as [H _]. lia.
      * by rewrite lookup_insert_ne.
  - apply Hno; [by intros []|]. unfold add_sink in Hstep. destruct (w_streams w !! s) as [st|] eqn:E; [|done]. injection Hstep as <-.
    apply same_holders; [done| |done]. intros r l. destruct r; cbn; [|done|done].
    destruct (decide (s = s0)) as [<-|].
    + rewrite lookup_insert, E. split; intros (?&[= <-]&H); eexists; done.
    + by rewrite lookup_insert_ne.
  - unfold stream_key_value in Hstep. destruct (w_streams w !! s) as [st|] eqn:E; [|done]. destruct (st_kvs st) as [l|] eqn:El.
    + injection Hstep as <-. destruct (set_holders w (RS s) l key value) as [H1 H2]; [done|cbn; eauto|done|]. split; [done|]. intros r. rewrite H2.
      destruct r; cbn; [|done|done]. destruct (decide (s = s0)), (decide (RS s0 = RS s)); cbn; congruence.
    + cbn in Hstep. injection Hstep as <-.
      match goal with |- sep (map_set ?x _ _ _) ∧ _ => destruct (new_holder w x (RS s)) as (H1&H2&H3); [done|done|done| | | |] end.
      * intros l (?&H&?). cbn in *. congruence.
      * intros r l. destruct r; cbn; [| |].
        { destruct (decide (s = s0)) as [<-|].
          - rewrite lookup_insert, E. split; [intros (?&[= <-]&H); cbn in H; injection H as <-; by right|].
            intros [(?&[= <-]&?)|[_ ->]]; [congruence|eexists; done].
          - rewrite lookup_insert_ne by done. split; [by left|]. intros [?|[? _]]; [done|congruence]. }
        { split; [by left|]. intros [?|[? _]]; [done|congruence]. }
        { split; [by left|]. intros [?|[? _]]; [done|congruence]. }
      * intros l. unfold kvs; cbn. case_decide; [subst; by rewrite lookup_insert|by rewrite lookup_insert_ne].
      * destruct (set_holders _ (RS s) (w_next w) key value H1 H2) as [H4 H5]; [done|]. split; [done|]. intros r. rewrite H5, H3.
        destruct r; cbn [sets_of stream_sets put]; [|done|done]. destruct (decide (s = s0)), (decide (RS s0 = RS s)); cbn; congruence.
  - apply Hno; [by intros []|]. injection Hstep as <-. apply same_holders; [done| |done].
    intros r l. destruct r; cbn; [done| |done].
    destruct (decide (j = w_next w)) as [->|].
    + rewrite lookup_insert. split; [intros (?&[= <-]&?); done|]. intros (st&H&_). apply (wf_jobs _ Hw) in H as [H _]. lia.
    + by rewrite lookup_insert_ne.
  - unfold job_key_value in Hstep. destruct (w_jobs w !! j) as [jb|] eqn:E; [|done]. destruct (jb_kvs jb) as [l|] eqn:El.
    + injection Hstep as <-. destruct (set_holders w (RJ j) l key value) as [H1 H2]; [done|cbn; eauto|done|]. split; [done|]. intros r. rewrite H2.
      destruct r; cbn; [done| |done]. destruct (decide (j = j0)), (decide (RJ j0 = RJ j)); cbn; congruence.
    + cbn in Hstep. injection Hstep as <-.
      match goal with |- sep (map_set ?x _ _ _) ∧ _ => destruct (new_holder w x (RJ j)) as (H1&H2&H3); [done|done|done| | | |] end.
      * intros l (?&H&?). cbn in *. congruence.
      * intros r l. destruct r; cbn; [| |].
        { split; [by left|]. intros [?|[? _]]; [done|congruence]. }
        { destruct (decide (j = j0)) as [<-|].
          - rewrite lookup_insert, E. split; [intros (?&[= <-]&H); cbn in H; injection H as <-; by right|].
            intros [(?&[= <-]&?)|[_ ->]]; [congruence|eexists; done].
          - rewrite lookup_insert_ne by done. split; [by left|]. intros [?|[? _]]; [done|congruence]. }
        { split; [by left|]. intros [?|[? _]]; [done|congruence]. }
      * intros l. unfold kvs; cbn. case_decide; [subst; by rewrite lookup_insert|by rewrite lookup_insert_ne].
      * destruct (set_holders _ (RJ j) (w_next w) key value H1 H2) as [H4 H5]; [done|]. split; [done|]. intros r. rewrite H5, H3.
        destruct r; cbn [sets_of job_sets put]; [done| |done]. destruct (decide (j = j0)), (decide (RJ j0 = RJ j)); cbn; congruence.
  - apply Hno; [by intros []|]. cbn in Hstep. injection Hstep as <-. split.
    + intros r r' l H1 H2.
      assert (G : ∀ r, holds (set_mine (new_map w ∅).1 (w_next w :: w_mine w)) r l → holds w r l ∨ r = RM ∧ l = w_next w).
      { intros [] H; cbn in H; [by left|by left|]. apply elem_of_cons in H as [->|H]; [by right|by left]. }
      destruct (G _ H1) as [G1|[-> E1]], (G _ H2) as [G2|[-> E2]]; [by eapply Hs| | |done]; subst; match goal with H : holds w _ (w_next w) |- _ => apply (holds_lt _ _ _ Hw) in H; lia end.
    + intros r. destruct (decide (r = RM)) as [->|Hm]; [done|]. destruct (holds_dec w r Hm) as [[l H]|H].
      * rewrite (content_holds _ r l), (content_holds w r l); [|done|done|done|by destruct r].
        unfold kvs; cbn. rewrite lookup_insert_ne; [done|]. apply (holds_lt _ _ _ Hw) in H. lia.
      * rewrite !content_none; [done|done|]. intros l Hl. apply (H l). by destruct r.
  - apply Hno; [by intros []|]. case_bool_decide as Hm; injection Hstep as <-; [|done].
    assert (Hh : ∀ r l', holds (map_set w l key value) r l' ↔ holds w r l') by (by intros []). split.
    + intros r r' l' H1%Hh H2%Hh. by eapply Hs.
    + intros r. destruct (decide (r = RM)) as [->|Hr]; [done|]. destruct (holds_dec w r Hr) as [[l' H]|H].
      * rewrite (content_holds _ r l'), (content_holds w r l'), kvs_map_set, decide_False; try done. intros ->. apply Hr. eapply Hs; [exact H|exact Hm].
      * rewrite !content_none; [done|done|]. intros l' Hl%Hh. by eapply H.
  - apply Hno; [by intros []|]. injection Hstep as <-. apply same_holders; [done| |]; destruct e; done.
Qed.

Definition last_of (sets : api → option (string * string)) (hist : list api) : gmap string string := fold_left (λ m a, put (sets a) m) hist ∅.
Lemma last_of_spec sets hist key v : last_of sets hist !! key = Some v ↔ set_last sets hist key v.
Proof.
  unfold set_last. induction hist as [|a hist IH] using rev_ind.
  - split; [done|]. intros (h1&a&h2&E&_). by destruct h1.
  - unfold last_of. rewrite fold_left_app. cbn. fold (last_of sets hist). split.
    + intros H. destruct (sets a) as [[k x]|] eqn:Ea; cbn in H.
      * destruct (decide (k = key)) as [->|Hk].
        { rewrite lookup_insert in H. injection H as ->. exists hist, a, []. done. }
        rewrite lookup_insert_ne in H by done. apply IH in H as (h1&b&h2&->&Hb&Hf). exists h1, b, (h2 ++ [a]).
        rewrite <-app_assoc. split; [done|]. split; [done|]. apply Forall_app. split; [done|]. constructor; [|done]. intros v' E. congruence.
      * apply IH in H as (h1&b&h2&->&Hb&Hf). exists h1, b, (h2 ++ [a]).
        rewrite <-app_assoc. split; [done|]. split; [done|]. apply Forall_app. split; [done|]. constructor; [|done]. intros v' E. congruence.
    + intros (h1&b&h2&E&Hb&Hf). destruct h2 as [|c h2 _] using rev_ind.
      * apply app_inj_tail in E as [-> ->]. rewrite Hb. cbn. by rewrite lookup_insert.
      * rewrite app_comm_cons, app_assoc in E. apply app_inj_tail in E as [-> ->]. apply Forall_app in Hf as [Hf Hc]. apply Forall_inv in Hc.
        assert (last_of sets (h1 ++ b :: h2) !! key = Some v) as H by (apply IH; eauto 10).
        destruct (sets c) as [[k x]|] eqn:Ec; cbn; [|done]. rewrite lookup_insert_ne; [done|]. intros ->. by apply (Hc x).
Qed.
Lemma run_content hist : ∀ w w' r, wf w → sep w → api_run w hist = Ok w' → content w' r = fold_left (λ m a, put (sets_of r a) m) hist (content w r).
Proof.
  induction hist as [|a hist IH]; intros w w' r Hw Hs H; cbn in H; [by injection H as ->|].
  destruct (api_step w a) as [w1|] eqn:E; [|done]. cbn in H. destruct (step_content _ _ _ Hw Hs E) as [Hs1 Hc].
  destruct (step_wf _ _ _ Hw E) as [Hw1 _]. rewrite (IH w1 w' r Hw1 Hs1 H), Hc. done.
Qed.
Lemma thm_levels clock hist w : api_run (world0 clock) hist = Ok w →
  (∀ s st key v, w_streams w !! s = Some st → kvs w (st_kvs st) !! key = Some v ↔ set_last (stream_sets s) hist key v) ∧
  (∀ j jb key v, w_jobs w !! j = Some jb → kvs w (jb_kvs jb) !! key = Some v ↔ set_last (job_sets j) hist key v).
Proof.
  intros H. assert (Hs0 : sep (world0 clock)). { intros r r' l H1. destruct r; cbn in H1; [destruct H1 as (?&?&_); done|destruct H1 as (?&?&_); done|by apply elem_of_nil in H1]. }
  pose proof (λ r, run_content hist _ _ r (wf_world0 clock) Hs0 H) as Hc. split.
  - intros s st key v Hst. specialize (Hc (RS s)). cbn in Hc. rewrite Hst in Hc. rewrite Hc. apply (last_of_spec (stream_sets s)).
  - intros s st key v Hst. specialize (Hc (RJ s)). cbn in Hc. rewrite Hst in Hc. rewrite Hc. apply (last_of_spec (job_sets s)).
Qed.
