(** * Proofs: messages of errors over whole call stacks (C74) *)
From Verif Require Import SHealth2 PHealth PHealth2 PHealth3 PHealth4 PHealth5 PHealthEx.

Lemma text_valid w e s : text_of w e s → valid w e.
Proof. intros H. destruct H; cbn; eauto. Qed.
Lemma report_wf w lv e w1 e1 : wf w → report w lv e = Ok (w1, e1) → wf w1 ∧ errs_le w w1.
Proof.
  intros Hwf H. destruct lv as [j ev s|j ev i s]; cbn in H.
  - destruct (step_wf w (ApiEventErr j ev e s) w1 Hwf) as (?&?&_); [|done]. cbn. by rewrite H.
  - destruct (step_wf w (ApiEventErrKv j ev e i s) w1 Hwf) as (?&?&_); [|done]. cbn. by rewrite H.
Qed.
Lemma chain_text w e ls w' e' s : wf w → chain anything w e ls w' e' → text_of w e s → text_of w' e' s.
Proof.
  intros Hwf H. revert Hwf. induction H as [w e|w a w1 e ls w' e' _ Ha _ IH|w e l w1 e1 ls w' e' Hr _ IH]; intros Hwf Ht; [done|..].
  - destruct (step_wf _ _ _ Hwf Ha) as (Hwf1&Hle&_). apply IH; [done|]. by eapply text_le.
  - destruct (report_wf _ _ _ _ _ Hwf Hr) as [Hwf1 _]. apply IH; [done|].
    destruct (report_spec _ _ _ _ _ Hwf (text_valid _ _ _ Ht) Hr) as (_&H&_). by apply H.
Qed.
Lemma thm_text_stays w id t ls w' e' : reachable w → chain anything w (EUser id t) ls w' e' → text_of w' e' t.
Proof. intros Hr H. eapply chain_text; [by apply reachable_wf|done|constructor]. Qed.

(** an object holding nil *)
Definition nil_at (w : world) (l : nat) : Prop := ∃ st b, w_errs w !! l = Some (OUnmuted ENil st b).
Lemma nil_le w w' l : errs_le w w' → nil_at w l → nil_at w' l.
Proof.
  intros Hle (st&b&H). destruct (Hle _ _ H) as (o&Ho&[->|(x&y&z&E&->)]); [by exists st, b|]. injection E as <- <- <-. by exists st, true.
Qed.
Lemma chain_nil w l ls w' e' : wf w → chain anything w (EUnmuted l) ls w' e' → nil_at w l → e' = EUnmuted l ∧ nil_at w' l.
Proof.
  intros Hwf H. remember (EUnmuted l) as e eqn:Ee. revert Hwf Ee.
  induction H as [w e|w a w1 e ls w' e' _ Ha _ IH|w e lv w1 e1 ls w' e' Hr _ IH]; intros Hwf Ee Hn; [done|..].
  - destruct (step_wf _ _ _ Hwf Ha) as (Hwf1&Hle&_). apply IH; [done..|]. by eapply nil_le.
  - destruct (report_wf _ _ _ _ _ Hwf Hr) as [Hwf1 Hle]. subst e.
    assert (valid w (EUnmuted l)) as Hv by (destruct Hn as (st&b&Hn); cbn; eauto).
    destruct (report_spec _ _ _ _ _ Hwf Hv Hr) as (Hrep&_&_). unfold reported in Hrep. cbn in Hrep. rewrite <-Hrep. apply IH; [done|done|]. by eapply nil_le.
Qed.
Lemma thm_nil_stays w lv w1 e1 ls w' e' : reachable w → report w lv ENil = Ok (w1, e1) → chain anything w1 e1 ls w' e' →
  e' ≠ ENil ∧ ∀ s, ¬ text_of w' e' s.
Proof.
  intros Hr Hrep Hch. pose proof (reachable_wf _ Hr) as Hwf. destruct (report_spec w lv ENil w1 e1 Hwf I Hrep) as ((l&s&->&_&Hl)&_&_).
  destruct (report_wf _ _ _ _ _ Hwf Hrep) as [Hwf1 _].
  destruct (chain_nil w1 l ls w' e' Hwf1 Hch) as (->&st&b&Hn); [by eexists _, _|]. split; [done|]. intros t Ht.
  inversion Ht as [|l' x t' Hx|l' x st' b' t' Hx Hy]; subst. rewrite Hn in Hx. injection Hx as <- _ _. inversion Hy.
Qed.

Lemma nil_ex_chain : ∃ w', chain anything ex_world (EUser 4 "no luck") [LErr 3 "oops" [1%N; 2%N]; LErr 1 "again" []] w' (EUnmuted 6).
Proof.
  assert (match report ex_world (LErr 3 "oops" [1%N; 2%N]) (EUser 4 "no luck") with
    | Ok (w1, e1) => match api_step w1 (ApiEvent 1 "between") with
        | Ok w2 => match report w2 (LErr 1 "again" []) e1 with Ok (w3, e3) => e3 | _ => ENil end
        | _ => ENil end
    | _ => ENil end = EUnmuted 6) as H by (vm_compute; reflexivity).
  destruct (report ex_world _ _) as [[w1 e1]|] eqn:E1; [|discriminate H]. destruct (api_step w1 _) as [w2|] eqn:E2; [|discriminate H].
  destruct (report w2 _ _) as [[w3 e3]|] eqn:E3; [|discriminate H]. subst e3.
  exists w3. eapply Ch_report; [exact E1|]. eapply Ch_other; [exact I|exact E2|]. eapply Ch_report; [exact E3|]. apply Ch_nil.
Qed.
