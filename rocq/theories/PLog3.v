(** * Proofs: executions with log sinks, panics recovered; Run *)
From Verif Require Import SLog PHealth PHealth2 PHealth3 PHealth4 PApi PWriter PWire2 PLog PLog2.
Local Arguments error_text : simpl never.

Lemma frame_good w w' : frame w w' → good w → good w'.
Proof.
  intros F [H1 H2]. split; [by eapply frame_wf|]. destruct F as (E&_). rewrite E. intros l o Hl. destruct (H2 _ _ Hl) as [H3 H4].
  split; [|done]. destruct (inner o); cbn in *; by rewrite ?E.
Qed.
Lemma step_where env s a j inst r : SHealth.emission a = Some (j, inst) → l_step env s a = Ok r →
  ∃ jb st, w_jobs (ls_w s) !! j = Some jb ∧ w_streams (ls_w s) !! jb_stream jb = Some st.
Proof.
  intros He H. destruct s as [w out]. destruct a; cbn in He; try done; injection He as -> <-; cbn [l_step ls_w] in *.
  all: try (unfold l_plain, l_complete, with_job_kvs in H; cbn in H; destruct (w_jobs w !! j) as [jb|]; [|done]; destruct (w_streams w !! jb_stream jb) as [st|] eqn:E; [|done]; eauto; fail).
  all: destruct (wrap_keeps w e stack) as [K1 K2]; unfold l_err, with_job_kvs in H; cbn [ls_w ls_out] in H;
    destruct (wrap_err w e stack) as [w' e']; cbn [fst snd] in *; rewrite K2, K1 in H;
    destruct (w_jobs w !! j) as [jb|]; [|done]; destruct (w_streams w !! jb_stream jb) as [st|] eqn:E; [|done]; eauto.
Qed.
(** a call that does not panic does what the API does *)
Lemma step_api env s a s' : l_step env s a = Ok (s', false) → api_step (ls_w s) a = Ok (ls_w s').
Proof.
  intros Hs. destruct (SHealth.emission a) as [[j inst]|] eqn:He.
  - destruct (step_where _ _ _ _ _ _ He Hs) as (jb & st & Hj & Hst).
    destruct (prep jb (ls_w s) a) as [[w0 args] fin] eqn:Hp. destruct (merged_key_values w0 st jb inst) as [w1 all] eqn:Hm.
    destruct (step_prep env s a j inst jb st w0 args fin w1 all He Hj Hst Hp Hm) as [Hl Hapi].
    destruct (prep_args _ _ _ _ _ _ Hp) as (Ha & _).
    destruct (l_loop env args jb all (st_sinks st) (LS w1 (ls_out s))) as [s1 b] eqn:Hlp.
    rewrite Hl in Hs. destruct b; [done|]. injection Hs as <-. cbn [ls_w].
    destruct (loop_spec env args jb all Ha _ _ _ _ Hlp) as (cs & bs & _ & _ & _ & _ & _ & L6). cbn [ls_w ls_out] in *.
    destruct (L6 eq_refl) as [_ L8]. by rewrite L8.
  - destruct a; cbn in He; try done; cbn [l_step] in Hs;
      match type of Hs with (w ←r ?x; _) = _ => destruct x as [w'|] eqn:E; [|done] end; cbn in Hs; injection Hs as <-; done.
Qed.
Lemma other_no_panic env s a s' b : SHealth.emission a = None → l_step env s a = Ok (s', b) → b = false ∧ ls_out s' = ls_out s.
Proof.
  intros He Hs. destruct a; cbn in He; try done; cbn [l_step] in Hs;
      match type of Hs with (w ←r ?x; _) = _ => destruct x as [w'|] eqn:E; [|done] end; cbn in Hs; injection Hs as <- <-; done.
Qed.
(** a call that panics *)
Lemma call_fails env s a j inst jb st s' : good (ls_w s) → env_ok env → api_can (ls_w s) a →
  SHealth.emission a = Some (j, inst) → w_jobs (ls_w s) !! j = Some jb → w_streams (ls_w s) !! jb_stream jb = Some st →
  l_step env s a = Ok (s', true) →
  good (ls_w s') ∧ (∀ l o, w_errs (ls_w s) !! l = Some o → w_errs (ls_w s') !! l = Some o) ∧
  ∃ cs bs, w_log (ls_w s') = w_log (ls_w s) ++ cs ∧ map c_sink cs = before_writer env (st_sinks st) ∧
    length bs = length (before_writer env (st_sinks st)) ∧
    ls_out s' = ls_out s ++ writes_of (before_writer env (st_sinks st)) bs ∧
    ∀ i k, before_writer env (st_sinks st) !! i = Some k → ∃ b, bs !! i = Some b ∧
      logs env (ls_w s) (ls_w s') st jb a inst (length (w_log (ls_w s)) + i) k b.
Proof.
  intros Hg Henv Hc He Hj Hst Hs.
  destruct (call_panics env s a j inst jb st Hg Hc He Hj Hst) as (s2 & b2 & P1 & P2). rewrite Hs in P1. injection P1 as <- <-.
  destruct (proj1 P2 eq_refl) as (e & Ee & Hnt & _). clear P2.
  destruct (prep jb (ls_w s) a) as [[w0 args] fin] eqn:Hp. destruct (merged_key_values w0 st jb inst) as [w1 all] eqn:Hm.
  destruct (step_prep env s a j inst jb st w0 args fin w1 all He Hj Hst Hp Hm) as [Hl _].
  destruct (prep_args _ _ _ _ _ _ Hp) as (Ha & Hfin & Hlog0 & Hs0 & Hj0 & Hk0). pose proof (prep_reads _ _ _ _ _ _ Hp) as Hr. pose proof (prep_good _ _ _ _ _ _ Hp Hg Hc) as Hg0.
  assert (good w1) as Hg1 by (pose proof (merged_good w0 st jb inst Hg0) as G; by rewrite Hm in G).
  destruct (merged_same _ _ _ _ _ _ Hm) as (E1 & _ & _ & _ & _ & _ & Hlog1).
  destruct (l_loop env args jb all (st_sinks st) (LS w1 (ls_out s))) as [s1 b] eqn:Hlp.
  rewrite Hl in Hs. destruct b; [|done]. injection Hs as <-.
  destruct (loop_spec env args jb all Ha _ _ _ _ Hlp) as (cs & bs & L1 & L2 & L3 & L4 & L5 & _). cbn [ls_w ls_out] in *.
  destruct (asks_text jb (ls_w s) a w0 args fin e w1 "" Hp Hg Hc Ee Hg1 E1) as (e' & A1 & _).
  assert (∀ t, error_text w1 e' ≠ Ok t) as R2.
  { intros t Ht. destruct (asks_text jb (ls_w s) a w0 args fin e w1 t Hp Hg Hc Ee Hg1 E1) as (e3 & A2 & A3). apply Hnt. exists t. apply A3. congruence. }
  destruct (loop_unread env args jb all Ha _ Hr (st_sinks st) e' A1 (LS w1 (ls_out s)) s1 true R2 Hlp) as [_ I].
  destruct (I eq_refl) as (cs' & I1 & I2). cbn [ls_w] in I1. rewrite L1 in I1. apply app_inv_head in I1 as <-.
  split; [by eapply frame_good|]. split.
  { destruct L4 as (-> & _). rewrite E1. intros l o Hlo. destruct a; cbn in Ee; try done; cbn in Hp; injection Hp as <- <- <-.
    all: assert (w_next (ls_w s) ≠ l) by (intros <-; apply (wf_errs _ (gd_wf _ Hg)) in Hlo; lia); destruct e0; cbn; try done; by rewrite lookup_insert_ne. }
  exists cs, bs. rewrite L1, Hlog1, Hlog0. split; [done|]. split; [done|]. rewrite <-I2. split; [by rewrite L2, map_length|]. split; [done|].
  intros i k Hi. rewrite list_lookup_fmap in Hi. destruct (cs !! i) as [c|] eqn:Hci; [|done]. cbn in Hi. injection Hi as <-.
  destruct (L5 _ _ Hci) as (K1 & K2 & K3 & [w2 K4] & o & K5 & K6). exists o. split; [done|]. rewrite Hlog1, Hlog0 in K6.
  apply (handled env (ls_w s) _ w1 st jb a inst _ c o Henv); [..|done].
  - intros text x Hx. rewrite K4. destruct a; cbn in Ee; try done; cbn in Hp; injection Hp as <- <- <-; cbn; constructor; by apply Hx.
  - intros x n. rewrite K4. destruct a; cbn in Ee; try done; cbn in Hp; injection Hp as <- <- <-; cbn; done.
  - done.
  - by apply (given_levels _ _ _ _ w0 w1 all).
  - rewrite K4. by apply (asked jb (ls_w s) a w0 args fin w1 w2); [..|rewrite He].
Qed.

(** ** Executions *)
Lemma fails_good env s a s' : good (ls_w s) → api_can (ls_w s) a → l_step env s a = Ok (s', true) → good (ls_w s').
Proof.
  intros Hg Hc Hs. destruct (SHealth.emission a) as [[j inst]|] eqn:He.
  - destruct (step_where _ _ _ _ _ _ He Hs) as (jb & st & Hj & Hst).
    destruct (prep jb (ls_w s) a) as [[w0 args] fin] eqn:Hp. destruct (merged_key_values w0 st jb inst) as [w1 all] eqn:Hm.
    destruct (step_prep env s a j inst jb st w0 args fin w1 all He Hj Hst Hp Hm) as [Hl _].
    destruct (prep_args _ _ _ _ _ _ Hp) as (Ha & _). pose proof (prep_good _ _ _ _ _ _ Hp Hg Hc) as Hg0.
    assert (good w1) as Hg1 by (pose proof (merged_good w0 st jb inst Hg0) as G; by rewrite Hm in G).
    destruct (l_loop env args jb all (st_sinks st) (LS w1 (ls_out s))) as [s1 b] eqn:Hlp.
    rewrite Hl in Hs. destruct b; [|done]. injection Hs as <-.
    destruct (loop_spec env args jb all Ha _ _ _ _ Hlp) as (cs & bs & _ & _ & _ & L4 & _). by eapply frame_good.
  - by destruct (other_no_panic _ _ _ _ _ He Hs).
Qed.
Lemma l_step_good env s a s' b : good (ls_w s) → api_can (ls_w s) a → l_step env s a = Ok (s', b) → good (ls_w s').
Proof.
  intros Hg Hc Hs. destruct b; [by eapply fails_good|]. apply step_api in Hs. by eapply api_good.
Qed.
Lemma good0 clock : good (world0 clock).
Proof. split; [apply wf_world0|]. cbn. intros l o H. by rewrite lookup_empty in H. Qed.
Lemma l_run_good env s tr s' : l_run env s tr s' → good (ls_w s) → good (ls_w s').
Proof. induction 1; [done|]. intros Hg. apply IHl_run. by eapply l_step_good. Qed.
Lemma l_reach_good env s : l_reach env s → good (ls_w s).
Proof. intros (c & tr & H). eapply l_run_good; [done|]. apply good0. Qed.

(** ** No nil, no panic *)
Definition texts (w : world) : Prop := ∀ l o, w_errs w !! l = Some o → has_text w (inner o).
Lemma held_text w e : texts w → holds w e → e ≠ ENil → has_text w e.
Proof.
  intros Ht Hh Hn. destruct e as [|i u|l|l]; [done|exists u; constructor|..].
  - destruct Hh as [x Hx]. destruct (Ht _ _ Hx) as [t H]. exists t. by econstructor.
  - destruct Hh as (x & st & b & Hx). destruct (Ht _ _ Hx) as [t H]. exists t. by econstructor.
Qed.
Lemma no_nil_run env s tr s' : l_run env s tr s' → good (ls_w s) → texts (ls_w s) →
  Forall (λ ab : api * bool, handed ab.1 ≠ Some ENil) tr → Forall (λ ab : api * bool, ab.2 = false) tr.
Proof.
  induction 1 as [|s a b s' tr s'' Hc Hs _ IH]; intros Hg Ht Hn; [done|]. inversion Hn as [|? ? Hn1 Hn2]; subst. cbn in Hn1.
  assert (b = false) as ->.
  { destruct (SHealth.emission a) as [[j inst]|] eqn:He; [|by destruct (other_no_panic _ _ _ _ _ He Hs)].
    destruct (step_where _ _ _ _ _ _ He Hs) as (jb & st & Hj & Hst).
    destruct (call_panics env s a j inst jb st Hg Hc He Hj Hst) as (s2 & b2 & P1 & P2). rewrite Hs in P1. injection P1 as <- <-.
    destruct b; [|done]. destruct (proj1 P2 eq_refl) as (e & Ee & Hnt & _). destruct Hnt.
    destruct a; cbn in Ee; try done; injection Ee as ->; cbn in Hc, Hn1; (apply held_text; [done|done|congruence]). }
  constructor; [done|]. apply IH; [by eapply l_step_good| |done].
  apply step_api in Hs. destruct (step_wf _ _ _ (gd_wf _ Hg) Hs) as (_ & Hle & _).
  intros l o Hl. destruct (api_new _ _ _ Hs _ _ Hl) as [(o0 & H0 & ->)|[_ H2]].
  - destruct (Ht _ _ H0) as [t H]. exists t. by eapply text_le.
  - assert (has_text (ls_w s) (inner o)) as [t H]; [|exists t; by eapply text_le].
    apply held_text; [done| |congruence]. destruct a; cbn in H2; try done; injection H2 as <-; exact Hc.
Qed.

(** ** Run *)
Lemma new_map_good w m : good w → good (new_map w m).1.
Proof.
  intros Hg. pose proof (gd_wf _ Hg) as Hwf. apply (good_step w); [done| |by apply errs_le_eq|cbn; eauto].
  destruct Hwf as [H1 H2 H3 H4 H5]. split; cbn.
  - intros l m'. destruct (decide (l = w_next w)) as [->|]; [lia|]. rewrite lookup_insert_ne by done. intros H. apply H1 in H. lia.
  - intros l o H. apply H2 in H. lia.
  - intros s st H. destruct (H3 _ _ H) as [K1 K2]. split; [lia|]. intros l Hl. destruct (K2 _ Hl) as [m' Hm']. pose proof (H1 _ _ Hm'). rewrite lookup_insert_ne by lia. eauto.
  - intros s st H. destruct (H4 _ _ H) as [K1 K2]. split; [lia|]. intros l Hl. destruct (K2 _ Hl) as [m' Hm']. pose proof (H1 _ _ Hm'). rewrite lookup_insert_ne by lia. eauto.
  - intros l Hl. destruct (H5 _ Hl) as [m' Hm']. pose proof (H1 _ _ Hm'). rewrite lookup_insert_ne by lia. eauto.
Qed.
Lemma no_error_panic env s a j inst jb st : good (ls_w s) → api_can (ls_w s) a →
  SHealth.emission a = Some (j, inst) → w_jobs (ls_w s) !! j = Some jb → w_streams (ls_w s) !! jb_stream jb = Some st →
  (∀ e, err_of a = Some e → has_text (ls_w s) e) → ∃ s', l_step env s a = Ok (s', false).
Proof.
  intros Hg Hc He Hj Hst Ht. destruct (call_panics env s a j inst jb st Hg Hc He Hj Hst) as (s2 & b2 & P1 & P2). exists s2. destruct b2; [|done].
  destruct (proj1 P2 eq_refl) as (e & Ee & Hnt & _). destruct Hnt. auto.
Qed.
Lemma run_panic env s f s1 j jb st eid text stx stack : good (ls_w s1) → env_ok env → f s = (s1, OPanic text) →
  w_jobs (ls_w s1) !! j = Some jb → w_streams (ls_w s1) !! jb_stream jb = Some st →
  ∃ w1 s2 s3 bs bs', (w1, w_next (ls_w s1)) = new_map (ls_w s1) {[ "stack" := stx ]} ∧
    l_job_run env s j f eid stx stack = Ok (s3, Some (Returned (EUser eid text))) ∧
    length bs = length (st_sinks st) ∧ length bs' = length (st_sinks st) ∧
    ls_out s3 = ls_out s1 ++ writes_of (st_sinks st) bs ++ writes_of (st_sinks st) bs' ∧
    ∀ i k, st_sinks st !! i = Some k → ∃ b b', bs !! i = Some b ∧ bs' !! i = Some b' ∧
      logs env w1 s2 st jb (ApiEventErrKv j "panic" (EUser eid text) (Some (w_next (ls_w s1))) stack) (Some (w_next (ls_w s1)))
        (length (w_log (ls_w s1)) + i) k b ∧
      logs env s2 (ls_w s3) st jb (ApiComplete j Panic) None (length (w_log s2) + i) k b'.
Proof.
  intros Hg Henv Hf Hj Hst. set (wm := (new_map (ls_w s1) {[ "stack" := stx ]}).1).
  set (m := w_next (ls_w s1)). set (a1 := ApiEventErrKv j "panic" (EUser eid text) (Some m) stack).
  assert (good wm) as Hgm by (by apply new_map_good).
  destruct (no_error_panic env (LS wm (ls_out s1)) a1 j (Some m) jb st Hgm I eq_refl Hj Hst) as [s2 S2].
  { intros e [= <-]. exists text. constructor. }
  destruct (call_logged env (LS wm (ls_out s1)) a1 j (Some m) jb st s2 Hgm Henv I I eq_refl Hj Hst S2) as (A2 & bs & B1 & B2 & B3).
  assert (good (ls_w s2)) as Hg2 by (eapply (l_step_good env (LS wm (ls_out s1)) a1); [done|exact I|done]).
  assert (w_jobs (ls_w s2) = w_jobs (ls_w s1) ∧ w_streams (ls_w s2) = w_streams (ls_w s1)) as [J2 T2].
  { destruct (emission_inv wm a1 j (Some m) (ls_w s2) eq_refl A2) as (jb' & st' & Hj' & Hst' & ->).
    destruct (emission_quiet wm a1 st' jb') as [_ _ Q3 Q4 _ _]. by rewrite Q3, Q4. }
  assert (w_jobs (ls_w s2) !! j = Some jb) as Hj2 by (by rewrite J2). assert (w_streams (ls_w s2) !! jb_stream jb = Some st) as Hst2 by (by rewrite T2).
  destruct (no_error_panic env s2 (ApiComplete j Panic) j None jb st Hg2 I eq_refl Hj2 Hst2) as [s3 S3]; [done|].
  destruct (call_logged env s2 (ApiComplete j Panic) j None jb st s3 Hg2 Henv I I eq_refl Hj2 Hst2 S3) as (A3 & bs' & C1 & C2 & C3).
  exists wm, (ls_w s2), s3, bs, bs'. split; [done|]. split.
  { unfold l_job_run. rewrite Hf. unfold new_map at 1. cbn [l_step a1] in S2. cbn [l_step] in S3.
    change (bump (set_maps (ls_w s1) (<[w_next (ls_w s1):={["stack" := stx]}]> (w_maps (ls_w s1))))) with wm. fold m. rewrite S2. cbn. rewrite S3. done. }
  split; [done|]. split; [done|]. split; [rewrite C2, B2; cbn; by rewrite <-app_assoc|].
  intros i k Hi. destruct (B3 _ _ Hi) as (b & H1 & H2), (C3 _ _ Hi) as (b' & H3 & H4). exists b, b'. done.
Qed.

(** ** Everything written was written for a call *)
Lemma writes_app ks1 ks2 bs1 bs2 : length ks1 = length bs1 → writes_of (ks1 ++ ks2) (bs1 ++ bs2) = writes_of ks1 bs1 ++ writes_of ks2 bs2.
Proof. intros H. unfold writes_of. by rewrite zip_with_app, omap_app. Qed.
Lemma handle_fits env w n c o : handle env w n c = Ok o → (is_writer env (c_sink c) → o ≠ None) ∧ (le_kind env (c_sink c) = SkQuiet → o = None).
Proof.
  unfold handle, is_writer. intros H. destruct (le_kind env (c_sink c)); split; try done; intros _; [|by injection H].
  destruct (match c_what c with PEventErr _ e _ => error_text w e | _ => Ok "" end); [|done]. cbn in H. by injection H as <-.
Qed.
Lemma step_out env s a s' b : l_step env s a = Ok (s', b) → ∃ cs bs, w_log (ls_w s') = w_log (ls_w s) ++ cs ∧ length bs = length cs ∧
  ls_out s' = ls_out s ++ writes_of (map c_sink cs) bs ∧
  ∀ i c, cs !! i = Some c → ∃ o, bs !! i = Some o ∧ (is_writer env (c_sink c) → o ≠ None) ∧ (le_kind env (c_sink c) = SkQuiet → o = None).
Proof.
  intros Hs. destruct (SHealth.emission a) as [[j inst]|] eqn:He.
  - destruct (step_where _ _ _ _ _ _ He Hs) as (jb & st & Hj & Hst).
    destruct (prep jb (ls_w s) a) as [[w0 args] fin] eqn:Hp. destruct (merged_key_values w0 st jb inst) as [w1 all] eqn:Hm.
    destruct (step_prep env s a j inst jb st w0 args fin w1 all He Hj Hst Hp Hm) as [Hl _].
    destruct (prep_args _ _ _ _ _ _ Hp) as (Ha & Hfin & Hlog0 & _). destruct (merged_same _ _ _ _ _ _ Hm) as (E1 & _ & _ & _ & _ & _ & Hlog1).
    destruct (l_loop env args jb all (st_sinks st) (LS w1 (ls_out s))) as [s1 b1] eqn:Hlp.
    destruct (loop_spec env args jb all Ha _ _ _ _ Hlp) as (cs & bs & L1 & L2 & L3 & _ & L5 & _). cbn [ls_w ls_out] in *.
    exists cs, bs. rewrite Hl in Hs. assert (w_log (ls_w s') = w_log (ls_w s1) ∧ ls_out s' = ls_out s1) as [-> ->].
    { destruct b1; injection Hs as <- <-; cbn; [done|]. by rewrite Hfin. }
    rewrite L1, Hlog1, Hlog0. split; [done|]. split; [done|]. split; [done|].
    intros i c Hc. destruct (L5 _ _ Hc) as (_ & _ & _ & _ & o & O1 & O2). exists o. split; [done|]. by apply handle_fits in O2.
  - destruct (other_no_panic _ _ _ _ _ He Hs) as [-> Ho]. exists [], []. rewrite Ho. cbn. rewrite !app_nil_r. split; [|done].
    apply step_api in Hs. destruct a; cbn in He; try done; cbn in Hs; revert Hs;
      unfold new_stream, add_sink, stream_key_value, new_job, job_key_value, new_map, map_set, mute, now; repeat (case_match; cbn; try done); intros [= <-]; done.
Qed.
Definition fits (env : logenv) (s : lstate) : Prop :=
  ∃ bs, length bs = length (w_log (ls_w s)) ∧ ls_out s = writes_of (map c_sink (w_log (ls_w s))) bs ∧
    ∀ i c, w_log (ls_w s) !! i = Some c → ∃ o, bs !! i = Some o ∧ (is_writer env (c_sink c) → o ≠ None) ∧ (le_kind env (c_sink c) = SkQuiet → o = None).
Lemma run_fits env s tr s' : l_run env s tr s' → fits env s → fits env s'.
Proof.
  induction 1 as [|s a b s' tr s'' Hc Hs _ IH]; [done|]. intros (bs & F1 & F2 & F3). apply IH.
  destruct (step_out _ _ _ _ _ Hs) as (cs & bs' & G1 & G2 & G3 & G4). exists (bs ++ bs'). rewrite G1, G3, F2.
  split; [rewrite !app_length; lia|]. split; [rewrite map_app, writes_app; [done|by rewrite map_length]|].
  intros i c Hi. destruct (decide (i < length bs)%nat) as [Hlt|Hge].
  - rewrite lookup_app_l in Hi by lia. rewrite lookup_app_l by done. auto.
  - rewrite lookup_app_r in Hi by lia. rewrite lookup_app_r by lia. rewrite F1. auto.
Qed.
Lemma reach_fits env s : l_reach env s → fits env s.
Proof. intros (c & tr & H). eapply run_fits; [done|]. exists []. done. Qed.

(** ** For reachable states *)
Lemma logged env s a j inst jb st s' : l_reach env s → env_ok env → api_can (ls_w s) a → int_times a →
  SHealth.emission a = Some (j, inst) → w_jobs (ls_w s) !! j = Some jb → w_streams (ls_w s) !! jb_stream jb = Some st →
  l_step env s a = Ok (s', false) →
  api_step (ls_w s) a = Ok (ls_w s') ∧
  ∃ bs, length bs = length (st_sinks st) ∧ ls_out s' = ls_out s ++ writes_of (st_sinks st) bs ∧
    ∀ i k, st_sinks st !! i = Some k → ∃ b, bs !! i = Some b ∧
      logs env (ls_w s) (ls_w s') st jb a inst (length (w_log (ls_w s)) + i) k b.
Proof. intros H. apply call_logged. by apply (l_reach_good env). Qed.
Lemma panics_exactly env s a j inst jb st : l_reach env s → api_can (ls_w s) a →
  SHealth.emission a = Some (j, inst) → w_jobs (ls_w s) !! j = Some jb → w_streams (ls_w s) !! jb_stream jb = Some st →
  ∃ s' b, l_step env s a = Ok (s', b) ∧
    (b = true ↔ ∃ e, err_of a = Some e ∧ ¬ has_text (ls_w s) e ∧ ∃ k, k ∈ st_sinks st ∧ is_writer env k).
Proof. intros H. apply call_panics. by apply (l_reach_good env). Qed.
Lemma without_nil env clock tr s : l_run env (LS (world0 clock) []) tr s →
  Forall (λ ab : api * bool, handed ab.1 ≠ Some ENil) tr → Forall (λ ab : api * bool, ab.2 = false) tr.
Proof. intros H. apply (no_nil_run _ _ _ _ H); [apply good0|]. cbn. intros l o Hl. exfalso. cbn in Hl. by rewrite lookup_empty in Hl. Qed.
Lemma fails env s a j inst jb st s' : l_reach env s → env_ok env → api_can (ls_w s) a →
  SHealth.emission a = Some (j, inst) → w_jobs (ls_w s) !! j = Some jb → w_streams (ls_w s) !! jb_stream jb = Some st →
  l_step env s a = Ok (s', true) →
  (∀ l o, w_errs (ls_w s) !! l = Some o → w_errs (ls_w s') !! l = Some o) ∧
  ∃ cs bs, w_log (ls_w s') = w_log (ls_w s) ++ cs ∧ map c_sink cs = before_writer env (st_sinks st) ∧
    length bs = length (before_writer env (st_sinks st)) ∧
    ls_out s' = ls_out s ++ writes_of (before_writer env (st_sinks st)) bs ∧
    ∀ i k, before_writer env (st_sinks st) !! i = Some k → ∃ b, bs !! i = Some b ∧
      logs env (ls_w s) (ls_w s') st jb a inst (length (w_log (ls_w s)) + i) k b.
Proof. intros H1 H2 H3 H4 H5 H6 H7. exact (proj2 (call_fails env s a j inst jb st s' (l_reach_good env s H1) H2 H3 H4 H5 H6 H7)). Qed.
Lemma in_run env s f s1 j jb st eid text stx stack : l_reach env s1 → env_ok env → f s = (s1, OPanic text) →
  w_jobs (ls_w s1) !! j = Some jb → w_streams (ls_w s1) !! jb_stream jb = Some st →
  ∃ w1 w2 s3 bs bs', (w1, w_next (ls_w s1)) = new_map (ls_w s1) {[ "stack" := stx ]} ∧
    l_job_run env s j f eid stx stack = Ok (s3, Some (Returned (EUser eid text))) ∧
    length bs = length (st_sinks st) ∧ length bs' = length (st_sinks st) ∧
    ls_out s3 = ls_out s1 ++ writes_of (st_sinks st) bs ++ writes_of (st_sinks st) bs' ∧
    ∀ i k, st_sinks st !! i = Some k → ∃ b b', bs !! i = Some b ∧ bs' !! i = Some b' ∧
      logs env w1 w2 st jb (ApiEventErrKv j "panic" (EUser eid text) (Some (w_next (ls_w s1))) stack) (Some (w_next (ls_w s1)))
        (length (w_log (ls_w s1)) + i) k b ∧
      logs env w2 (ls_w s3) st jb (ApiComplete j Panic) None (length (w_log w2) + i) k b'.
Proof. intros H. apply run_panic. by apply (l_reach_good env). Qed.
