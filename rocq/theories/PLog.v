(** * Proofs: what a stream's log sinks write *)
From Verif Require Import SLog PHealth PHealth2 PHealth3 PHealth4 PApi PWriter PWire2.

(** ** The heap of errors *)
Definition inner (o : eobj) : errv := match o with OMuted e => e | OUnmuted e _ _ => e end.
Definition depth (e : errv) : nat := match e with EMuted l | EUnmuted l => S l | _ => 0 end.
Record good (w : world) : Prop := {
  gd_wf : wf w;
  gd_in : ∀ l o, w_errs w !! l = Some o → holds w (inner o) ∧ (depth (inner o) ≤ l)%nat }.

Lemma holds_depth w e : wf w → holds w e → (depth e ≤ w_next w)%nat.
Proof.
  intros Hwf H. destruct e; cbn in *; try lia.
  - destruct H as [x H]. apply (wf_errs _ Hwf) in H. lia.
  - destruct H as (x & st & b & H). apply (wf_errs _ Hwf) in H. lia.
Qed.
Lemma holds_le w w' e : errs_le w w' → holds w e → holds w' e.
Proof.
  intros Hle H. destruct e; cbn in *; try done.
  - destruct H as [x H]. destruct (Hle _ _ H) as (o & Ho & [->|(a & b & c & E & _)]); [eauto|done].
  - destruct H as (x & st & b & H). destruct (Hle _ _ H) as (o & Ho & [->|(a & b' & c & E & ->)]); eauto.
Qed.
Lemma method_text w e : good w → holds w e → ∀ fuel, (depth e < fuel)%nat → ∀ t, error_method fuel w e = Ok t ↔ text_of w e t.
Proof.
  intros [Hwf Hin] Hv fuel. revert e Hv. induction fuel as [|fuel IH]; intros e Hv Hd t; [lia|].
  destruct e as [|id x|l|l]; cbn in *.
  - split; [done|]. inversion 1.
  - split; [intros [= ->]; constructor|]. by inversion 1.
  - destruct Hv as [x Hx]. destruct (Hin _ _ Hx) as [H1 H2]. cbn in *. rewrite Hx, IH; [|done|lia]. split; [by econstructor|].
    inversion 1 as [|? ? ? Hy|]; subst. congruence.
  - destruct Hv as (x & st & b & Hx). destruct (Hin _ _ Hx) as [H1 H2]. cbn in *. rewrite Hx, IH; [|done|lia]. split; [by econstructor|].
    inversion 1 as [| |? ? ? ? ? Hy]; subst. congruence.
Qed.
Lemma text_iff w e t : good w → holds w e → error_text w e = Ok t ↔ text_of w e t.
Proof. intros Hg Hv. apply method_text; [done..|]. destruct Hg. pose proof (holds_depth _ _ gd_wf0 Hv). lia. Qed.

(** texts do not change, whatever is added or marked *)
Lemma text_back w w' e t : good w → errs_le w w' → holds w e → text_of w' e t → text_of w e t.
Proof.
  intros [Hwf Hin] Hle Hv H. revert Hv. induction H as [id s|l e s Hx _ IH|l e st b s Hx _ IH]; intros Hv.
  - constructor.
  - destruct Hv as [x Ho]. destruct (Hle _ _ Ho) as (o' & Ho' & [->|(?&?&?&?&_)]); [|done].
    assert (x = e) as -> by congruence. econstructor; [done|]. apply IH. exact (proj1 (Hin _ _ Ho)).
  - destruct Hv as (x & st' & b' & Ho). destruct (Hle _ _ Ho) as (o' & Ho' & L).
    assert (x = e) as -> by (destruct L as [->|(?&?&?&E&->)]; congruence).
    econstructor; [done|]. apply IH. exact (proj1 (Hin _ _ Ho)).
Qed.

(** how the heap of errors can change *)
Lemma good_step w w' : good w → wf w' → errs_le w w' →
  (∀ l o, w_errs w' !! l = Some o → (∃ o0, w_errs w !! l = Some o0 ∧ inner o = inner o0) ∨ ((w_next w ≤ l)%nat ∧ holds w (inner o))) → good w'.
Proof.
  intros [Hwf Hin] Hwf' Hle Hnew. split; [done|]. intros l o Hl.
  destruct (Hnew _ _ Hl) as [(o0 & H0 & E)|[H1 H2]].
  - destruct (Hin _ _ H0) as [H1 H2]. rewrite E. split; [by eapply holds_le|done].
  - split; [by eapply holds_le|]. pose proof (holds_depth _ _ Hwf H2). lia.
Qed.
Lemma wrap_new w e st l o : w_errs (wrap_err w e st).1 !! l = Some o →
  (∃ o0, w_errs w !! l = Some o0 ∧ inner o = inner o0) ∨ ((w_next w ≤ l)%nat ∧ inner o = e).
Proof.
  intros H. destruct e; cbn in H; eauto.
  - destruct (decide (l = w_next w)) as [->|Hn]; [|rewrite lookup_insert_ne in H by done; eauto].
    rewrite lookup_insert in H. injection H as <-. right. done.
  - destruct (decide (l = w_next w)) as [->|Hn]; [|rewrite lookup_insert_ne in H by done; eauto].
    rewrite lookup_insert in H. injection H as <-. right. done.
Qed.
Lemma mark_new w e l o : w_errs (mark_emitted w e) !! l = Some o → ∃ o0, w_errs w !! l = Some o0 ∧ inner o = inner o0.
Proof.
  unfold mark_emitted. destruct e as [| | |l']; eauto. destruct (w_errs w !! l') as [[|x s b]|] eqn:E; eauto.
  cbn. destruct (decide (l' = l)) as [->|]; [|rewrite lookup_insert_ne by done; eauto].
  rewrite lookup_insert. intros [= <-]. eauto.
Qed.
Lemma api_new w a w' : api_step w a = Ok w' → ∀ l o, w_errs w' !! l = Some o →
  (∃ o0, w_errs w !! l = Some o0 ∧ inner o = inner o0) ∨ ((w_next w ≤ l)%nat ∧ handed a = Some (inner o)).
Proof.
  intros Hs.
  destruct (SHealth.emission a) as [[j inst]|] eqn:He.
  - destruct (emission_inv _ _ _ _ _ He Hs) as (jb & st & Hj & Hst & ->).
    assert (∀ i p, w_errs (simple_result w st jb i p) = w_errs w) as H1.
    { intros i p. unfold simple_result. destruct (merged_key_values w st jb i) as [w1 all] eqn:E. change (w_errs w1 = w_errs w). by destruct (merged_same _ _ _ _ _ _ E) as [-> _]. }
    assert (∀ i p, w_errs (complete_result w st jb i p) = w_errs w) as H2.
    { intros i p. unfold complete_result. destruct (merged_key_values w st jb i) as [w1 all] eqn:E. change (w_errs w1 = w_errs w). by destruct (merged_same _ _ _ _ _ _ E) as [-> _]. }
    intros l o. destruct a; cbn in He; try done; cbn [result_of]; rewrite ?H1, ?H2, ?err_result_errs; eauto.
    + intros (o0 & H & E)%mark_new. apply (wrap_new w) in H as [(o1 & H & E')|[? E']]; [|right; cbn; by rewrite E, E']. left. exists o1. split; [done|congruence].
    + intros (o0 & H & E)%mark_new. apply (wrap_new w) in H as [(o1 & H & E')|[? E']]; [|right; cbn; by rewrite E, E']. left. exists o1. split; [done|congruence].
  - intros l o. destruct a; cbn in He; try done; cbn in Hs.
    + injection Hs as <-. cbn. eauto.
    + unfold add_sink in Hs. destruct (w_streams w !! _); [|done]. injection Hs as <-. cbn. eauto.
    + unfold stream_key_value in Hs. destruct (w_streams w !! _) as [st|]; [|done]. destruct (st_kvs st); injection Hs as <-; cbn; eauto.
    + injection Hs as <-. cbn. eauto.
    + unfold job_key_value in Hs. destruct (w_jobs w !! _) as [jb|]; [|done]. destruct (jb_kvs jb); injection Hs as <-; cbn; eauto.
    + injection Hs as <-. cbn. eauto.
    + case_bool_decide; injection Hs as <-; cbn; eauto.
    + injection Hs as <-. cbn. intros H. destruct (decide (l = w_next w)) as [->|Hn]; [|rewrite lookup_insert_ne in H by done; eauto].
      rewrite lookup_insert in H. injection H as <-. right. done.
Qed.
Lemma api_good w a w' : good w → api_can w a → api_step w a = Ok w' → good w'.
Proof.
  intros Hg Hc Hs. destruct (step_wf _ _ _ (gd_wf _ Hg) Hs) as (Hwf & Hle & _). eapply good_step; [done..|].
  intros l o Hl. destruct (api_new _ _ _ Hs _ _ Hl) as [?|[H1 H2]]; [by left|]. right. split; [done|].
  destruct a; cbn in H2; try done; injection H2 as <-; exact Hc.
Qed.

(** ** The loop *)
Definition frame (w w' : world) : Prop :=
  w_errs w' = w_errs w ∧ w_next w' = w_next w ∧ w_maps w' = w_maps w ∧
  w_streams w' = w_streams w ∧ w_jobs w' = w_jobs w ∧ w_mine w' = w_mine w.
Lemma frame_trans w1 w2 w3 : frame w1 w2 → frame w2 w3 → frame w1 w3.
Proof. intros (?&?&?&?&?&?) (?&?&?&?&?&?). repeat split; congruence. Qed.
Lemma frame_wf w w' : frame w w' → wf w → wf w'.
Proof. intros (E1&E2&E3&E4&E5&E6) []. split; rewrite ?E1, ?E2, ?E3, ?E4, ?E5, ?E6; auto. Qed.
Definition args_ok (args : world → world * payload) : Prop :=
  ∀ w, frame w (args w).1 ∧ w_log (args w).1 = w_log w.
Local Arguments error_text : simpl never.
Lemma text_ext w w' e : w_errs w' = w_errs w → w_next w' = w_next w → error_text w' e = error_text w e.
Proof.
  intros H1 H2. unfold error_text. rewrite H2. generalize (S (w_next w)) as n. intros n. revert e. induction n as [|n IH]; intros e; [done|].
  cbn. rewrite H1. destruct e; try done; destruct (w_errs w !! l) as [[]|]; auto.
Qed.
Lemma text_frame w w' e : frame w w' → error_text w' e = error_text w e.
Proof. intros (?&?&_). by apply text_ext. Qed.
Lemma kvs_frame w w' m : frame w w' → kvs w' m = kvs w m.
Proof. intros (_&_&E&_). unfold kvs. by rewrite E. Qed.
Lemma handle_frame env w w' n c : frame w w' → handle env w' n c = handle env w n c.
Proof.
  intros F. unfold handle. destruct (le_kind env (c_sink c)); [| |done].
  - destruct (c_what c); try done. by rewrite (text_frame w w').
  - destruct (c_what c); try done. by rewrite (text_frame w w').
Qed.
#[global] Instance skind_eq : EqDecision skind.
Proof. solve_decision. Defined.
Lemma handle_none env w n c : le_kind env (c_sink c) ≠ SkWriter → ∃ o, handle env w n c = Ok o.
Proof. intros H. unfold handle. destruct (le_kind env (c_sink c)); [done|eauto..]. Qed.
Definition reads (p : payload) : option errv := match p with PEventErr _ e _ => Some e | _ => None end.
Definition readable (w : world) (r : option errv) : Prop :=
  match r with None => True | Some e => ∃ t, error_text w e = Ok t end.
Lemma readable_frame w w' r : frame w w' → readable w r → readable w' r.
Proof. intros F. destruct r; [|done]. cbn. by rewrite (text_frame w w'). Qed.
Lemma handle_read env w n c : readable w (reads (c_what c)) → ∃ o, handle env w n c = Ok o.
Proof.
  intros H. destruct (decide (le_kind env (c_sink c) = SkWriter)) as [E|E]; [|by apply handle_none].
  unfold handle. rewrite E. destruct (c_what c); cbn in H; eauto. destruct H as [t ->]. cbn. eauto.
Qed.
Lemma handle_unread env w n c e : le_kind env (c_sink c) = SkWriter → reads (c_what c) = Some e → (∀ t, error_text w e ≠ Ok t) →
  ∃ x, handle env w n c = Crash x.
Proof.
  intros E Hr Ht. unfold handle. rewrite E. destruct (c_what c); cbn in Hr; try done. injection Hr as ->.
  destruct (error_text w e) as [t|x]; [by destruct (Ht t)|]. cbn. eauto.
Qed.

Section loop.
  Context (env : logenv) (args : world → world * payload) (jb : job) (all : option nat).
  Context (Ha : args_ok args).

  Lemma loop_spec ks : ∀ s s' b, l_loop env args jb all ks s = (s', b) →
    ∃ cs bs, w_log (ls_w s') = w_log (ls_w s) ++ cs ∧ length bs = length cs ∧
      ls_out s' = ls_out s ++ writes_of (map c_sink cs) bs ∧ frame (ls_w s) (ls_w s') ∧
      (∀ i c, cs !! i = Some c → c_kvs c = all ∧ c_view c = kvs (ls_w s) all ∧ c_job c = jb_name jb ∧ (∃ w2, c_what c = (args w2).2) ∧
         ∃ o, bs !! i = Some o ∧ handle env (ls_w s) (length (w_log (ls_w s)) + i) c = Ok o) ∧
      (b = false → map c_sink cs = ks ∧
         ls_w s' = for_sinks (ls_w s) ks (λ w k, let '(w, p) := args w in sink_call w k jb p all)).
  Proof using Ha.
    induction ks as [|k ks IH]; intros s s' b H; cbn [l_loop] in H.
    { injection H as <- <-. exists [], []. rewrite !app_nil_r. repeat split; done. }
    pose proof (Ha (ls_w s)) as (F & A3). destruct (args (ls_w s)) as [w p] eqn:Ea. cbn in F, A3.
    set (c := Call k (jb_name jb) p all (kvs w all)) in *.
    destruct (handle env w (length (w_log w)) c) as [o|x] eqn:Eh.
    - destruct (IH _ _ _ H) as (cs & bs & L1 & L2 & L3 & L4 & L7 & L8). cbn in L1, L3, L4, L7, L8.
      assert (frame (ls_w s) (set_log w (w_log w ++ [c]))) as F2 by (destruct F as (?&?&?&?&?&?); repeat split; done).
      exists (c :: cs), (o :: bs). split_and!.
      + rewrite L1, A3, <-app_assoc. done.
      + cbn. by rewrite L2.
      + rewrite L3, <-app_assoc. f_equal. unfold writes_of. cbn. by destruct o.
      + by eapply frame_trans.
      + intros [|i] c' Hc; cbn in Hc.
        * injection Hc as <-. split; [done|]. split; [cbn; by rewrite (kvs_frame (ls_w s) w)|].
          split; [done|]. split; [exists (ls_w s); by rewrite Ea|]. exists o. split; [done|].
          rewrite Nat.add_0_r, <-A3. rewrite <-(handle_frame env (ls_w s) w) by done. done.
        * destruct (L7 _ _ Hc) as (K1 & K2 & K5 & K6 & o' & K3 & K4). split; [done|]. split.
          { rewrite K2. by apply kvs_frame. }
          split; [done|]. split; [done|]. exists o'. split; [done|]. rewrite <-K4. rewrite (handle_frame env (ls_w s) _ _ _ F2). f_equal. cbn. rewrite app_length, A3. cbn. lia.
      + intros ->. destruct (L8 eq_refl) as [M1 M2]. split; [cbn; by rewrite M1|]. rewrite M2. cbn. unfold for_sinks. cbn. by rewrite Ea.
    - injection H as <- <-. exists [], []. rewrite !app_nil_r. split_and!; try done.
  Qed.

  Context (r : option errv) (Hr : ∀ w, reads (args w).2 = r).
  Lemma loop_fine ks : ∀ s, readable (ls_w s) r → (l_loop env args jb all ks s).2 = false.
  Proof using Ha Hr.
    induction ks as [|k ks IH]; intros s Hrd; cbn [l_loop]; [done|].
    pose proof (Ha (ls_w s)) as (F & A3). pose proof (Hr (ls_w s)) as E. destruct (args (ls_w s)) as [w p]. cbn in F, A3, E.
    assert (readable w r) as Hrd' by (by eapply readable_frame).
    destruct (handle_read env w (length (w_log w)) (Call k (jb_name jb) p all (kvs w all))) as [o ->]; [cbn; by rewrite E|].
    apply IH. by apply (readable_frame w).
  Qed.
  Lemma loop_unread ks e : r = Some e → ∀ s s' b, (∀ t, error_text (ls_w s) e ≠ Ok t) → l_loop env args jb all ks s = (s', b) →
    (b = true ↔ ∃ k, k ∈ ks ∧ is_writer env k) ∧
    (b = true → ∃ cs, w_log (ls_w s') = w_log (ls_w s) ++ cs ∧ map c_sink cs = before_writer env ks).
  Proof using Ha Hr.
    intros ->. induction ks as [|k ks IH]; intros s s' b Ht H; cbn [l_loop] in H.
    { injection H as <- <-. split; [|done]. split; [done|]. intros (k & Hk & _). by apply elem_of_nil in Hk. }
    pose proof (Ha (ls_w s)) as (F & A3). pose proof (Hr (ls_w s)) as E. destruct (args (ls_w s)) as [w p]. cbn in F, A3, E.
    assert (∀ t, error_text w e ≠ Ok t) as Ht' by (intros t; by rewrite (text_frame (ls_w s) w)).
    set (c := Call k (jb_name jb) p all (kvs w all)) in *. cbn [before_writer].
    destruct (decide (le_kind env k = SkWriter)) as [Ek|Ek].
    - destruct (handle_unread env w (length (w_log w)) c e Ek E Ht') as [x Hx]. rewrite Hx in H. injection H as <- <-. cbn.
      split; [split; [|done]|].
      + intros _. exists k. split; [left|done].
      + intros _. exists []. rewrite app_nil_r, Ek. done.
    - destruct (handle_none env w (length (w_log w)) c Ek) as [o Ho]. rewrite Ho in H.
      assert (∀ t, error_text (set_log w (w_log w ++ [c])) e ≠ Ok t) as Ht2 by (intros t; rewrite (text_ext w) by done; apply Ht').
      destruct (IH (LS (set_log w (w_log w ++ [c])) _) s' b Ht2 H) as [I1 I2]. cbn in I2. split.
      + rewrite I1. split.
        * intros (k' & Hk & Hw). exists k'. split; [by right|done].
        * intros (k' & Hk & Hw). apply elem_of_cons in Hk as [-> | Hk]; [done|eauto].
      + intros Hb. destruct (I2 Hb) as (cs & C1 & C2). exists (c :: cs). rewrite C1, A3, <-app_assoc. split; [done|]. cbn. rewrite C2.
        by destruct (le_kind env k).
  Qed.
End loop.

(** ** One call *)
Definition prep (jb : job) (w : world) (a : api) : world * (world → world * payload) * (world → world) :=
  match a with
  | ApiEvent _ ev | ApiEventKv _ ev _ => (w, λ w, (w, PEvent ev), λ w, w)
  | ApiTiming _ ev n | ApiTimingKv _ ev n _ => (w, λ w, (w, PTiming ev n), λ w, w)
  | ApiGauge _ ev v | ApiGaugeKv _ ev v _ => (w, λ w, (w, PGauge ev v), λ w, w)
  | ApiComplete _ st | ApiCompleteKv _ st _ =>
      (w, λ w, let '(w, t) := now w in (w, PComplete st (sub_sat t (jb_start jb))), λ w, w)
  | ApiEventErr _ ev e st | ApiEventErrKv _ ev e _ st =>
      let we := wrap_err w e st in (we.1, λ w, (w, PEventErr ev we.2 (emitted w we.2)), λ w, mark_emitted w we.2)
  | _ => (w, λ w, (w, PEvent ""), λ w, w)
  end.
Lemma wrap_keeps w e st : w_streams (wrap_err w e st).1 = w_streams w ∧ w_jobs (wrap_err w e st).1 = w_jobs w.
Proof. by destruct e. Qed.
Lemma step_prep env s a j inst jb st w0 args fin w1 all :
  SHealth.emission a = Some (j, inst) → w_jobs (ls_w s) !! j = Some jb → w_streams (ls_w s) !! jb_stream jb = Some st →
  prep jb (ls_w s) a = (w0, args, fin) → merged_key_values w0 st jb inst = (w1, all) →
  l_step env s a = Ok (let '(s1, b) := l_loop env args jb all (st_sinks st) (LS w1 (ls_out s)) in
    if b then (s1, true) else (LS (fin (ls_w s1)) (ls_out s1), false)) ∧
  api_step (ls_w s) a = Ok (fin (for_sinks w1 (st_sinks st) (λ w k, let '(w, p) := args w in sink_call w k jb p all))).
Proof.
  intros He Hj Hst Hp Hm. destruct s as [w out]. cbn in Hj, Hst, Hp.
  assert (∀ j' inst' p, w_jobs w !! j' = Some jb → merged_key_values w st jb inst' = (w1, all) →
    l_plain env (LS w out) j' inst' p = Ok (let '(s1, b) := l_loop env (λ w, (w, p)) jb all (st_sinks st) (LS w1 out) in
      if b then (s1, true) else (LS (ls_w s1) (ls_out s1), false))) as HP.
  { intros j' inst' p Hj' Hm'. unfold l_plain, with_job_kvs. cbn. rewrite Hj', Hst, Hm'. by destruct (l_loop _ _ _ _ _ _) as [[? ?] []]. }
  assert (∀ j' inst' p, w_jobs w !! j' = Some jb → merged_key_values w st jb inst' = (w1, all) →
    l_complete env (LS w out) j' inst' p = Ok (let '(s1, b) := l_loop env (λ w, let '(w, t) := now w in (w, PComplete p (sub_sat t (jb_start jb)))) jb all (st_sinks st) (LS w1 out) in
      if b then (s1, true) else (LS (ls_w s1) (ls_out s1), false))) as HC.
  { intros j' inst' p Hj' Hm'. unfold l_complete, with_job_kvs. cbn. rewrite Hj', Hst, Hm'. by destruct (l_loop _ _ _ _ _ _) as [[? ?] []]. }
  destruct a; cbn in He; try done; cbn [prep] in Hp; injection Hp as <- <- <-; injection He as -> <-; cbn [l_step api_step ls_w ls_out].
  all: try (split; [first [by apply HP | by apply HC]|]).
  all: try (unfold job_event, job_event_kv, job_timing, job_timing_kv, job_gauge, job_gauge_kv, job_complete, job_complete_kv, with_job_kvs; rewrite Hj, Hst, Hm; done).
  all: destruct (wrap_keeps w e stack) as [K1 K2]; unfold l_err, job_event_err, job_event_err_kv, with_job_kvs; cbn [ls_w ls_out];
    destruct (wrap_err w e stack) as [w' e']; cbn [fst snd] in *; rewrite K2, Hj, K1, Hst, Hm; split; [by destruct (l_loop _ _ _ _ _ _) as [[? ?] []]|done].
Qed.
