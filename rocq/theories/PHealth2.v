(** * Proofs about streams, jobs and error reports: C01-C08 *)
From Verif Require Export PHealth.

(** ** Log, clock and errors after each emitter *)
Lemma simple_log w st jb inst p :
  ∃ all view, w_log (simple_result w st jb inst p) = w_log w ++ map (λ k, Call k (jb_name jb) p all view) (st_sinks st) ∧
    (∀ key, view !! key = lookup_levels (kvs w (st_kvs st)) (kvs w (jb_kvs jb)) (kvs w inst) key) ∧
    all = (merged_key_values w st jb inst).2 ∧
    view = kvs (merged_key_values w st jb inst).1 all.
Proof.
  unfold simple_result. destruct (merged_key_values w st jb inst) as [w1 all] eqn:E.
  exists all, (kvs w1 all). split_and!; try done.
  - cbn. destruct (merged_same _ _ _ _ _ _ E) as (_&_&_&_&_&_&->). done.
  - intros key. by eapply merged_view; [| | |exact E].
Qed.

Lemma complete_log w st jb inst s :
  ∃ all view cs, w_log (complete_result w st jb inst s) = w_log w ++ cs ∧
    map c_sink cs = st_sinks st ∧
    w_ticks (complete_result w st jb inst s) = (w_ticks w + length (st_sinks st))%nat ∧
    Forall (λ c, c_job c = jb_name jb ∧ c_kvs c = all ∧ c_view c = view ∧
       ∃ t, (w_ticks w ≤ t < w_ticks w + length (st_sinks st))%nat ∧
         c_what c = PComplete s (sub_sat (w_clock w t) (jb_start jb))) cs ∧
    (∀ key, view !! key = lookup_levels (kvs w (st_kvs st)) (kvs w (jb_kvs jb)) (kvs w inst) key) ∧
    all = (merged_key_values w st jb inst).2 ∧
    view = kvs (merged_key_values w st jb inst).1 all.
Proof.
  unfold complete_result. destruct (merged_key_values w st jb inst) as [w1 all] eqn:E.
  destruct (merged_same _ _ _ _ _ _ E) as (_&_&_&_&Hc&Ht&Hl).
  eexists all, (kvs w1 all), _. split_and!; [cbn; by rewrite Hl|apply ccalls_sinks|cbn; by rewrite Ht| | |done|done].
  - apply ccalls_forall. intros k n Hn. cbn. split_and!; try done. exists n. rewrite Ht in Hn.
    split; [lia|]. by rewrite Hc.
  - intros key. by eapply merged_view; [| | |exact E].
Qed.

Lemma mark_log w e : w_log (mark_emitted w e) = w_log w.
Proof. unfold mark_emitted. destruct e; try done. by destruct (w_errs w !! l) as [[]|]. Qed.
Lemma mark_ticks w e : w_ticks (mark_emitted w e) = w_ticks w.
Proof. unfold mark_emitted. destruct e; try done. by destruct (w_errs w !! l) as [[]|]. Qed.
Lemma mark_errs w w2 e : w_errs w = w_errs w2 → w_errs (mark_emitted w e) = w_errs (mark_emitted w2 e).
Proof.
  intros H. unfold mark_emitted. destruct e; try done. rewrite H.
  destruct (w_errs w2 !! l) as [[]|]; cbn; by rewrite ?H.
Qed.

Lemma err_result_snd w st jb inst ev e s :
  (err_result w st jb inst ev e s).2 = (wrap_err w e s).2.
Proof. unfold err_result. destruct (wrap_err w e s). by destruct (merged_key_values w0 st jb inst). Qed.

Lemma err_result_errs w st jb inst ev e s :
  w_errs (err_result w st jb inst ev e s).1 =
  w_errs (mark_emitted (wrap_err w e s).1 (wrap_err w e s).2).
Proof.
  unfold err_result. destruct (wrap_err w e s) as [w0 e']. destruct (merged_key_values w0 st jb inst) as [w1 all] eqn:E.
  cbn. apply mark_errs. cbn. by destruct (merged_same _ _ _ _ _ _ E) as [-> _].
Qed.

Lemma wrap_kvs w e s r : kvs (wrap_err w e s).1 r = kvs w r.
Proof. by destruct e, r. Qed.

Lemma err_log w st jb inst ev e s :
  ∃ all view, w_log (err_result w st jb inst ev e s).1 =
      w_log w ++ map (λ k, Call k (jb_name jb)
        (PEventErr ev (wrap_err w e s).2 (emitted (wrap_err w e s).1 (wrap_err w e s).2)) all view) (st_sinks st) ∧
    (∀ key, view !! key = lookup_levels (kvs w (st_kvs st)) (kvs w (jb_kvs jb)) (kvs w inst) key) ∧
    all = (merged_key_values (wrap_err w e s).1 st jb inst).2 ∧
    view = kvs (merged_key_values (wrap_err w e s).1 st jb inst).1 all.
Proof.
  unfold err_result. pose proof (wrap_kvs w e s) as Hk.
  assert (Hl : w_log (wrap_err w e s).1 = w_log w) by (by destruct e).
  destruct (wrap_err w e s) as [w0 e']. destruct (merged_key_values w0 st jb inst) as [w1 all] eqn:E.
  cbn in *. exists all, (kvs w1 all). rewrite E. split_and!; try done.
  - rewrite mark_log. cbn. destruct (merged_same _ _ _ _ _ _ E) as (_&_&_&_&_&_&->). by rewrite Hl.
  - intros key. rewrite <-!Hk. by eapply merged_view; [| | |exact E].
Qed.

(** ** What wrapping and marking do *)
Lemma wrap_emitted w e s : wf w → was_emitted w e (emitted (wrap_err w e s).1 (wrap_err w e s).2).
Proof.
  intros Hwf. destruct e; cbn; try done; [by rewrite lookup_insert|by rewrite lookup_insert|].
  by destruct (w_errs w !! l) as [[]|].
Qed.

Lemma reported_err w st jb inst ev e s :
  wf w → reported w (err_result w st jb inst ev e s).1 e (wrap_err w e s).2.
Proof.
  intros Hwf. unfold reported.
  destruct (is_wrapped e) eqn:Ew; [by destruct e|].
  assert (Hf : w_errs w !! w_next w = None).
  { destruct (w_errs w !! w_next w) eqn:E; [|done]. apply (wf_errs _ Hwf) in E. lia. }
  exists (w_next w), s. rewrite err_result_errs.
  destruct e; try done; cbn; rewrite lookup_insert; cbn; rewrite lookup_insert; done.
Qed.

(** ** C01/C02: every emission *)
Lemma emission_content w a j inst jb st :
  wf w → emission a = Some (j, inst) → w_jobs w !! j = Some jb → w_streams w !! jb_stream jb = Some st →
  ∃ w' cs, api_step w a = Ok w' ∧ w_log w' = w_log w ++ cs ∧ map c_sink cs = st_sinks st ∧
    Forall (λ c, c_job c = jb_name jb ∧ tells w w' jb a (c_what c) ∧
      ∀ key, c_view c !! key = lookup_levels (kvs w (st_kvs st)) (kvs w (jb_kvs jb)) (kvs w inst) key) cs.
Proof.
  intros Hwf He Hj Hs. eexists. rewrite (emission_open _ _ _ _ _ _ He Hj Hs).
  assert (Hsimple : ∀ p, tells w (result_of w a st jb) jb a p → result_of w a st jb = simple_result w st jb inst p →
     ∃ cs, Ok (result_of w a st jb) = Ok (result_of w a st jb) ∧
       w_log (result_of w a st jb) = w_log w ++ cs ∧ map c_sink cs = st_sinks st ∧
       Forall (λ c, c_job c = jb_name jb ∧ tells w (result_of w a st jb) jb a (c_what c) ∧
         ∀ key, c_view c !! key = lookup_levels (kvs w (st_kvs st)) (kvs w (jb_kvs jb)) (kvs w inst) key) cs).
  { intros p Hp Hr. destruct (simple_log w st jb inst p) as (all&view&Hl&Hv&_). rewrite Hr in *.
    eexists. split; [done|]. split; [exact Hl|]. split; [rewrite map_map; apply map_id|].
    apply Forall_forall. intros c (k&->&_)%elem_of_list_fmap. cbn. done. }
  assert (Hcomplete : ∀ s, (∀ t, (w_ticks w ≤ t < w_ticks (result_of w a st jb))%nat →
       tells w (result_of w a st jb) jb a (PComplete s (sub_sat (w_clock w t) (jb_start jb)))) →
     result_of w a st jb = complete_result w st jb inst s →
     ∃ cs, Ok (result_of w a st jb) = Ok (result_of w a st jb) ∧
       w_log (result_of w a st jb) = w_log w ++ cs ∧ map c_sink cs = st_sinks st ∧
       Forall (λ c, c_job c = jb_name jb ∧ tells w (result_of w a st jb) jb a (c_what c) ∧
         ∀ key, c_view c !! key = lookup_levels (kvs w (st_kvs st)) (kvs w (jb_kvs jb)) (kvs w inst) key) cs).
  { intros s Hp Hr. destruct (complete_log w st jb inst s) as (all&view&cs&Hl&Hsk&Ht&Hf&Hv&_). rewrite Hr in *.
    exists cs. split; [done|]. split; [exact Hl|]. split; [done|].
    eapply Forall_impl; [exact Hf|]. intros c (H1&H2&->&t&Htt&->). split; [done|]. split; [|done].
    apply Hp. rewrite Ht. lia. }
  assert (Herr : ∀ ev e s, (∀ x' b, reported w (result_of w a st jb) e x' → was_emitted w e b →
       tells w (result_of w a st jb) jb a (PEventErr ev x' b)) →
     result_of w a st jb = (err_result w st jb inst ev e s).1 →
     ∃ cs, Ok (result_of w a st jb) = Ok (result_of w a st jb) ∧
       w_log (result_of w a st jb) = w_log w ++ cs ∧ map c_sink cs = st_sinks st ∧
       Forall (λ c, c_job c = jb_name jb ∧ tells w (result_of w a st jb) jb a (c_what c) ∧
         ∀ key, c_view c !! key = lookup_levels (kvs w (st_kvs st)) (kvs w (jb_kvs jb)) (kvs w inst) key) cs).
  { intros ev e s Hp Hr. destruct (err_log w st jb inst ev e s) as (all&view&Hl&Hv&_). rewrite Hr in *.
    eexists. split; [done|]. split; [exact Hl|]. split; [rewrite map_map; apply map_id|].
    apply Forall_forall. intros c (k&->&_)%elem_of_list_fmap. cbn. split; [done|]. split; [|done].
    apply Hp; [by apply reported_err|by apply wrap_emitted]. }
  destruct a; cbn in He; try done; injection He as -> <-.
  all: first [ by eapply Hsimple; [constructor|]
             | by eapply Hcomplete; [intros; constructor|]
             | by eapply Herr; [intros; by constructor|] ].
Qed.

(** ** The invariant holds in every reachable world *)
Lemma wf_world0 clock : wf (world0 clock).
Proof. split; cbn; intros *; rewrite ?lookup_empty; try done. by intros ?%elem_of_nil. Qed.

(** errors keep their kind, content and stack; only the flag can be raised *)
Definition obj_le (o o' : eobj) : Prop :=
  o' = o ∨ ∃ e st b, o = OUnmuted e st b ∧ o' = OUnmuted e st true.
Definition errs_le (w w' : world) : Prop :=
  ∀ l o, w_errs w !! l = Some o → ∃ o', w_errs w' !! l = Some o' ∧ obj_le o o'.
Lemma obj_le_trans a b c : obj_le a b → obj_le b c → obj_le a c.
Proof.
  intros [->|(e&s&x&->&->)] [->|(e2&s2&x2&H2&->)]; unfold obj_le; eauto 10.
  injection H2 as -> -> <-. eauto 10.
Qed.
Lemma errs_le_refl w : errs_le w w.
Proof. intros l o H. exists o. split; [done|]. by left. Qed.
Lemma errs_le_eq w w' : w_errs w' = w_errs w → errs_le w w'.
Proof. intros E l o H. exists o. rewrite E. split; [done|]. by left. Qed.
Lemma errs_le_trans a b c : errs_le a b → errs_le b c → errs_le a c.
Proof.
  intros H1 H2 l o H. destruct (H1 _ _ H) as (o1&E1&L1). destruct (H2 _ _ E1) as (o2&E2&L2).
  exists o2. split; [done|]. by eapply obj_le_trans.
Qed.
Lemma errs_le_fresh w w' o : wf w → w_errs w' = <[w_next w := o]> (w_errs w) → errs_le w w'.
Proof.
  intros Hwf E l o' H. exists o'. pose proof (wf_errs _ Hwf _ _ H). rewrite E, lookup_insert_ne by lia.
  split; [done|]. by left.
Qed.
Lemma mark_le w e : errs_le w (mark_emitted w e).
Proof.
  unfold mark_emitted. destruct e; try apply errs_le_refl.
  destruct (w_errs w !! l) as [[|e s b]|] eqn:E; try apply errs_le_refl.
  intros l' o H. cbn. destruct (decide (l = l')) as [<-|Hne].
  - rewrite lookup_insert. eexists. split; [done|]. right. rewrite E in H. injection H as <-. eauto.
  - rewrite lookup_insert_ne by done. exists o. split; [done|]. by left.
Qed.
Lemma wrap_le w e s : wf w → errs_le w (wrap_err w e s).1.
Proof. intros Hwf. destruct e; try apply errs_le_refl; by eapply errs_le_fresh. Qed.

Lemma err_le w st jb inst ev e s : wf w → errs_le w (err_result w st jb inst ev e s).1.
Proof.
  intros Hwf. eapply errs_le_trans; [by apply (wrap_le w e s)|].
  eapply errs_le_trans; [apply mark_le|]. apply errs_le_eq. by rewrite err_result_errs.
Qed.

Lemma merged_next w st jb inst :
  (w_next w ≤ w_next (merged_key_values w st jb inst).1)%nat ∧
  ∀ l m, w_maps (merged_key_values w st jb inst).1 !! l = Some m →
    w_maps w !! l = Some m ∨ (l < w_next (merged_key_values w st jb inst).1)%nat.
Proof.
  destruct (merged_key_values w st jb inst) as [w1 all] eqn:E.
  destruct (merged_cases _ _ _ _ _ _ _ _ _ E) as [(_&_&->)|(_&->&_)]; cbn; [|eauto].
  split; [lia|]. intros l m. destruct (decide (l = w_next w)) as [->|]; [lia|].
  rewrite lookup_insert_ne by done. eauto.
Qed.

Lemma quiet_wf w w' :
  wf w → quiet w w' →
  (∀ l m, w_maps w' !! l = Some m → (l < w_next w')%nat) →
  (∀ l m, w_errs w' !! l = Some m → (l < w_next w')%nat) → wf w'.
Proof.
  intros Hwf [Qn Qm Qs Qj Qi Qc] Hm He.
  assert (Hold : ∀ l, is_Some (w_maps w !! l) → is_Some (w_maps w' !! l)).
  { intros l [m Hl]. exists m. rewrite Qm; [done|]. by eapply wf_maps. }
  split; [done|done|..]; rewrite ?Qs, ?Qj, ?Qi.
  - intros s st Hs. destruct (wf_streams _ Hwf _ _ Hs) as [H1 H2]. split; [lia|]. eauto.
  - intros j jb Hj. destruct (wf_jobs _ Hwf _ _ Hj) as [H1 H2]. split; [lia|]. eauto.
  - intros l Hl. apply Hold. by apply (wf_mine _ Hwf).
Qed.

Lemma mark_dom w e l o : w_errs (mark_emitted w e) !! l = Some o → is_Some (w_errs w !! l).
Proof.
  unfold mark_emitted. destruct e; eauto. destruct (w_errs w !! l0) as [[]|] eqn:E; eauto.
  cbn. destruct (decide (l0 = l)) as [<-|]; [by rewrite E|]. rewrite lookup_insert_ne by done. eauto.
Qed.

Lemma err_next w st jb inst ev e s :
  (w_next (wrap_err w e s).1 ≤ w_next (err_result w st jb inst ev e s).1)%nat.
Proof.
  unfold err_result. destruct (wrap_err w e s) as [w0 e']. pose proof (merged_next w0 st jb inst) as [Hn _].
  destruct (merged_key_values w0 st jb inst) as [w1 all]. cbn in *.
  match goal with |- context [mark_emitted ?a ?b] => destruct (mark_quiet a b) as [Hn3 _ _ _ _ _] end. cbn in *. lia.
Qed.

Lemma result_wf w a st jb : wf w → wf (result_of w a st jb).
Proof.
  intros Hwf.
  assert (Hs : ∀ inst p, wf (simple_result w st jb inst p)).
  { intros inst p. eapply quiet_wf; [done|apply simple_quiet|..]; unfold simple_result;
      pose proof (merged_next w st jb inst) as [Hn Hm]; destruct (merged_key_values w st jb inst) as [w1 all] eqn:E; cbn in *.
    - intros l m [H|H]%Hm; [|done]. apply (wf_maps _ Hwf) in H. lia.
    - destruct (merged_same _ _ _ _ _ _ E) as [-> _]. intros l m H%(wf_errs _ Hwf). lia. }
  assert (Hc : ∀ inst p, wf (complete_result w st jb inst p)).
  { intros inst p. eapply quiet_wf; [done|apply complete_quiet|..]; unfold complete_result;
      pose proof (merged_next w st jb inst) as [Hn Hm]; destruct (merged_key_values w st jb inst) as [w1 all] eqn:E; cbn in *.
    - intros l m [H|H]%Hm; [|done]. apply (wf_maps _ Hwf) in H. lia.
    - destruct (merged_same _ _ _ _ _ _ E) as [-> _]. intros l m H%(wf_errs _ Hwf). lia. }
  assert (He : ∀ inst ev e s, wf (err_result w st jb inst ev e s).1).
  { intros inst ev e s. eapply quiet_wf; [done|apply err_quiet|..].
    - unfold err_result. pose proof (wrap_quiet w e s) as Hq.
      assert (Hm0 : w_maps (wrap_err w e s).1 = w_maps w) by (by destruct e).
      destruct (wrap_err w e s) as [w0 e']. pose proof (merged_next w0 st jb inst) as [Hn Hm].
      destruct (merged_key_values w0 st jb inst) as [w1 all] eqn:E. cbn in *.
      destruct (mark_quiet (set_log w1 (w_log w1 ++ map (mkcall w1 jb (PEventErr ev e' (emitted w0 e')) all) (st_sinks st))) e') as [Hn2 _ _ _ _ _].
      intros l m Hl.
      assert (Hl' : w_maps w1 !! l = Some m).
      { revert Hl. unfold mark_emitted. destruct e'; try done. cbn. by destruct (w_errs w1 !! l0) as [[]|]. }
      cbn in Hn2. destruct (Hm _ _ Hl') as [H|H]; [|lia]. rewrite Hm0 in H. apply (wf_maps _ Hwf) in H.
      destruct Hq. lia.
    - intros l m Hl. rewrite err_result_errs in Hl. apply mark_dom in Hl as [o Hl].
      destruct (err_quiet w st jb inst ev e s) as [Hn _ _ _ _ _].
      destruct e; cbn in Hl; try (apply (wf_errs _ Hwf) in Hl; lia).
      all: destruct (decide (l = w_next w)) as [->|];
        [|rewrite lookup_insert_ne in Hl by done; apply (wf_errs _ Hwf) in Hl; lia].
      all: match goal with |- context [err_result _ _ _ _ _ ?x _] =>
        pose proof (err_next w st jb inst ev x s) as Hn2; cbn in Hn2; lia end. }
  destruct a; cbn; eauto.
Qed.
