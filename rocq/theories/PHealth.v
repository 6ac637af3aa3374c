(** * Proofs about streams, jobs and error reports: emissions *)
From Verif Require Export SHealth.
#[global] Arguments merged_key_values : simpl never.
#[global] Arguments merged_key_values_ord : simpl never.

(** ** Worlds *)
Lemma set_log_id w : set_log w (w_log w) = w.
Proof. by destruct w. Qed.

(** ** The loops over sinks *)
Definition mkcall (w : world) (jb : job) (p : payload) (all : option nat) (k : nat) : call :=
  Call k (jb_name jb) p all (kvs w all).

Lemma kvs_set_log w l r : kvs (set_log w l) r = kvs w r.
Proof. by destruct r. Qed.
Lemma emitted_set_log w l e : emitted (set_log w l) e = emitted w e.
Proof. by destruct e. Qed.

Lemma for_sinks_plain (f : world → payload) jb all ks w :
  (∀ w l, f (set_log w l) = f w) →
  for_sinks w ks (λ w k, sink_call w k jb (f w) all) =
  set_log w (w_log w ++ map (mkcall w jb (f w) all) ks).
Proof.
  intros Hf. unfold for_sinks. revert w. induction ks as [|k ks IH]; intros w; cbn [fold_left map].
  - by rewrite app_nil_r, set_log_id.
  - rewrite IH. unfold sink_call, mkcall. rewrite Hf, kvs_set_log. cbn. by rewrite <-app_assoc.
Qed.

Definition set_ticks (w : world) (n : nat) : world :=
  World (w_next w) (w_maps w) (w_errs w) (w_streams w) (w_jobs w) (w_mine w) (w_clock w) n (w_log w).

Fixpoint ccalls (w : world) (jb : job) (status : Z) (all : option nat) (t : nat) (ks : list nat) : list call :=
  match ks with
  | [] => []
  | k :: ks' => mkcall w jb (PComplete status (sub_sat (w_clock w t) (jb_start jb))) all k
                :: ccalls w jb status all (S t) ks'
  end.

Lemma ccalls_world w w2 jb status all t ks :
  w_maps w = w_maps w2 → w_clock w = w_clock w2 → ccalls w jb status all t ks = ccalls w2 jb status all t ks.
Proof.
  intros Hm Hc. revert t; induction ks as [|k ks IH]; intros t; [done|].
  cbn. rewrite IH, Hc. unfold mkcall, kvs. by rewrite Hm.
Qed.

Lemma for_sinks_complete jb status all ks w :
  for_sinks w ks (λ w k, let '(w, t) := now w in sink_call w k jb (PComplete status (sub_sat t (jb_start jb))) all) =
  set_log (set_ticks w (w_ticks w + length ks)) (w_log w ++ ccalls w jb status all (w_ticks w) ks).
Proof.
  unfold for_sinks. revert w. induction ks as [|k ks IH]; intros w; cbn [fold_left ccalls length].
  - rewrite app_nil_r, Nat.add_0_r. by destruct w.
  - rewrite IH. unfold sink_call, now, set_log, set_ticks, mkcall, kvs. cbn.
    f_equal; [lia|]. rewrite <-app_assoc. f_equal. cbn. f_equal.
    apply ccalls_world; done.
Qed.

Lemma ccalls_sinks w jb status all t ks : map c_sink (ccalls w jb status all t ks) = ks.
Proof. revert t; induction ks as [|k ks IH]; intros t; cbn; [done|]. by rewrite IH. Qed.
Lemma mkcall_sinks w jb p all ks : map c_sink (map (mkcall w jb p all) ks) = ks.
Proof. rewrite map_map. cbn. apply map_id. Qed.

Lemma ccalls_forall w jb status all t ks (P : call → Prop) :
  (∀ k n, (t ≤ n < t + length ks)%nat →
     P (mkcall w jb (PComplete status (sub_sat (w_clock w n) (jb_start jb))) all k)) →
  Forall P (ccalls w jb status all t ks).
Proof.
  revert t; induction ks as [|k ks IH]; intros t HP; cbn; constructor.
  - apply HP. cbn; lia.
  - apply IH. intros k' n Hn. apply HP. cbn; lia.
Qed.

(** ** Merging *)
Lemma lookup_range_put (l : list (string * string)) (m : gmap string string) key :
  NoDup l.*1 →
  range l (λ k v m, <[k := v]> m) m !! key =
  match (list_to_map l : gmap string string) !! key with Some v => Some v | None => m !! key end.
Proof.
  unfold range. revert m. induction l as [|[k v] l IH]; intros m Hnd; cbn.
  - by rewrite lookup_empty.
  - apply NoDup_cons in Hnd as [Hk Hnd]. rewrite IH by done.
    destruct (decide (k = key)) as [->|Hne].
    + rewrite (not_elem_of_list_to_map_1 l key) by done. by rewrite !lookup_insert.
    + by rewrite !lookup_insert_ne.
Qed.

Lemma enum_lookup (m : gmap string string) l key :
  l ≡ₚ map_to_list m → NoDup l.*1 ∧ (list_to_map l : gmap string string) !! key = m !! key.
Proof.
  intros HP. assert (Hnd : NoDup l.*1) by (rewrite HP; apply NoDup_fst_map_to_list).
  split; [done|]. rewrite (list_to_map_proper l (map_to_list m)) by done.
  by rewrite list_to_map_to_list.
Qed.

Lemma merge_loops_lookup ms mj mi ls lj li key :
  ls ≡ₚ map_to_list ms → lj ≡ₚ map_to_list mj → li ≡ₚ map_to_list mi →
  merge_loops ls lj li !! key = lookup_levels ms mj mi key.
Proof.
  intros H1 H2 H3. unfold merge_loops, lookup_levels.
  destruct (enum_lookup _ _ key H1) as [N1 E1], (enum_lookup _ _ key H2) as [N2 E2],
    (enum_lookup _ _ key H3) as [N3 E3].
  rewrite (lookup_range_put li), (lookup_range_put lj), (lookup_range_put ls) by done.
  rewrite E1, E2, E3, lookup_empty.
  destruct (mi !! key), (mj !! key), (ms !! key); done.
Qed.

Lemma merged_cases w st jb inst ls lj li w' all :
  merged_key_values_ord w st jb inst ls lj li = (w', all) →
  (2 ≤ levels w st jb inst)%nat ∧ all = Some (w_next w) ∧ w' = fst (new_map w (merge_loops ls lj li)) ∨
  (levels w st jb inst ≤ 1)%nat ∧ w' = w ∧ (all = None ∨ all = st_kvs st ∨ all = jb_kvs jb ∨ all = inst) ∧
  ∀ key, kvs w all !! key = lookup_levels (kvs w (st_kvs st)) (kvs w (jb_kvs jb)) (kvs w inst) key.
Proof.
  unfold merged_key_values_ord, levels, nonempty.
  destruct (decide (kvs w (jb_kvs jb) = ∅)) as [Ej|Ej];
  destruct (decide (kvs w (st_kvs st) = ∅)) as [Es|Es];
  destruct (decide (kvs w inst = ∅)) as [Ei|Ei];
  repeat first [rewrite (bool_decide_eq_true_2 (kvs _ _ ≠ ∅)) by done
               |rewrite (bool_decide_eq_false_2 (kvs _ _ ≠ ∅)) by (intros Hx; by apply Hx)];
  cbn; intros [= <- <-];
  try (left; split; [lia|done]);
  right; (split; [lia|]); (split; [done|]); (split; [by eauto|]); intros key; unfold lookup_levels;
  rewrite ?Ej, ?Es, ?Ei, ?lookup_empty; try done;
  try (by destruct (_ !! key)).
Qed.

Lemma kvs_new_map w m : kvs (new_map w m).1 (Some (w_next w)) = m.
Proof. cbn. by rewrite lookup_insert. Qed.

Lemma merged_view w st jb inst ls lj li w' all key :
  ls ≡ₚ map_to_list (kvs w (st_kvs st)) → lj ≡ₚ map_to_list (kvs w (jb_kvs jb)) → li ≡ₚ map_to_list (kvs w inst) →
  merged_key_values_ord w st jb inst ls lj li = (w', all) →
  kvs w' all !! key = lookup_levels (kvs w (st_kvs st)) (kvs w (jb_kvs jb)) (kvs w inst) key.
Proof.
  intros H1 H2 H3 Hm. destruct (merged_cases _ _ _ _ _ _ _ _ _ Hm) as [(_&->&->)|(_&->&_&H)]; [|done].
  rewrite kvs_new_map. by apply merge_loops_lookup.
Qed.

(** the result does not depend on the enumerations *)
Lemma merged_order w st jb inst ls lj li :
  ls ≡ₚ map_to_list (kvs w (st_kvs st)) → lj ≡ₚ map_to_list (kvs w (jb_kvs jb)) → li ≡ₚ map_to_list (kvs w inst) →
  merged_key_values_ord w st jb inst ls lj li = merged_key_values w st jb inst.
Proof.
  intros H1 H2 H3. unfold merged_key_values, merged_key_values_ord.
  replace (merge_loops ls lj li) with
    (merge_loops (map_to_list (kvs w (st_kvs st))) (map_to_list (kvs w (jb_kvs jb))) (map_to_list (kvs w inst))).
  - done.
  - apply map_eq. intros key. by rewrite (merge_loops_lookup _ _ _ _ _ _ _ H1 H2 H3), (merge_loops_lookup _ _ _ _ _ _ _ (reflexivity _) (reflexivity _) (reflexivity _)).
Qed.

(** ** The shape of every emission *)

(** the world after merging the key/values, possibly with one more map *)
Definition same_but_maps (w w' : world) : Prop :=
  w_errs w' = w_errs w ∧ w_streams w' = w_streams w ∧ w_jobs w' = w_jobs w ∧ w_mine w' = w_mine w ∧
  w_clock w' = w_clock w ∧ w_ticks w' = w_ticks w ∧ w_log w' = w_log w.

Lemma merged_same w st jb inst w' all :
  merged_key_values w st jb inst = (w', all) → same_but_maps w w'.
Proof.
  intros H. destruct (merged_cases _ _ _ _ _ _ _ _ _ H) as [(_&_&->)|(_&->&_)]; done.
Qed.
Lemma merged_maps w st jb inst w' all :
  merged_key_values w st jb inst = (w', all) →
  (w_next w ≤ w_next w')%nat ∧ ∀ l, (l < w_next w)%nat → w_maps w' !! l = w_maps w !! l.
Proof.
  intros H. destruct (merged_cases _ _ _ _ _ _ _ _ _ H) as [(_&_&->)|(_&->&_)]; [|done].
  cbn. split; [lia|]. intros l Hl. rewrite lookup_insert_ne by lia. done.
Qed.

(** ** Allocation invariant *)
Record wf (w : world) : Prop := {
  wf_maps : ∀ l m, w_maps w !! l = Some m → (l < w_next w)%nat;
  wf_errs : ∀ l o, w_errs w !! l = Some o → (l < w_next w)%nat;
  wf_streams : ∀ s st, w_streams w !! s = Some st → (s < w_next w)%nat ∧
     ∀ l, st_kvs st = Some l → is_Some (w_maps w !! l);
  wf_jobs : ∀ j jb, w_jobs w !! j = Some jb → (j < w_next w)%nat ∧
     ∀ l, jb_kvs jb = Some l → is_Some (w_maps w !! l);
  wf_mine : ∀ l, l ∈ w_mine w → is_Some (w_maps w !! l) }.

(** ** Each emitting method, opened *)
Definition merged0 (w : world) (st : stream) (jb : job) (inst : option nat) := merged_key_values w st jb inst.

Lemma with_job_kvs_ok {A} w j inst (k : world → stream → job → option nat → A) jb st :
  w_jobs w !! j = Some jb → w_streams w !! jb_stream jb = Some st →
  with_job_kvs w j inst k =
  Ok (k (merged_key_values w st jb inst).1 st jb (merged_key_values w st jb inst).2).
Proof.
  intros Hj Hs. unfold with_job_kvs. rewrite Hj, Hs. by destruct (merged_key_values w st jb inst).
Qed.

(** the five emitters *)
Definition simple_result (w : world) st jb inst (p : payload) : world :=
  let '(w1, all) := merged_key_values w st jb inst in
  set_log w1 (w_log w1 ++ map (mkcall w1 jb p all) (st_sinks st)).
Definition complete_result (w : world) st jb inst (status : Z) : world :=
  let '(w1, all) := merged_key_values w st jb inst in
  set_log (set_ticks w1 (w_ticks w1 + length (st_sinks st)))
    (w_log w1 ++ ccalls w1 jb status all (w_ticks w1) (st_sinks st)).
Definition err_result (w : world) st jb inst (ev : string) (e : errv) (stack : list N) : world * errv :=
  let '(w0, e') := wrap_err w e stack in
  let '(w1, all) := merged_key_values w0 st jb inst in
  (mark_emitted (set_log w1 (w_log w1 ++ map (mkcall w1 jb (PEventErr ev e' (emitted w0 e')) all) (st_sinks st))) e', e').

#[global] Arguments err_result : simpl never.
#[global] Arguments simple_result : simpl never.
#[global] Arguments complete_result : simpl never.

Section open.
  Context (w : world) (j : nat) (jb : job) (st : stream).
  Context (Hj : w_jobs w !! j = Some jb) (Hs : w_streams w !! jb_stream jb = Some st).

  Lemma event_open ev inst : job_event_kv w j ev inst = Ok (simple_result w st jb inst (PEvent ev)).
  Proof.
    unfold job_event_kv, simple_result. rewrite (with_job_kvs_ok _ _ _ _ jb st) by done.
    rewrite (for_sinks_plain (λ _, PEvent ev)) by done. by destruct (merged_key_values w st jb inst).
  Qed.
  Lemma timing_open ev n inst : job_timing_kv w j ev n inst = Ok (simple_result w st jb inst (PTiming ev n)).
  Proof.
    unfold job_timing_kv, simple_result. rewrite (with_job_kvs_ok _ _ _ _ jb st) by done.
    rewrite (for_sinks_plain (λ _, PTiming ev n)) by done. by destruct (merged_key_values w st jb inst).
  Qed.
  Lemma gauge_open ev v inst : job_gauge_kv w j ev v inst = Ok (simple_result w st jb inst (PGauge ev v)).
  Proof.
    unfold job_gauge_kv, simple_result. rewrite (with_job_kvs_ok _ _ _ _ jb st) by done.
    rewrite (for_sinks_plain (λ _, PGauge ev v)) by done. by destruct (merged_key_values w st jb inst).
  Qed.
  Lemma complete_open status inst : job_complete_kv w j status inst = Ok (complete_result w st jb inst status).
  Proof.
    unfold job_complete_kv, complete_result. rewrite (with_job_kvs_ok _ _ _ _ jb st) by done.
    rewrite for_sinks_complete. by destruct (merged_key_values w st jb inst).
  Qed.
  Lemma wrap_same e stack :
    w_jobs (wrap_err w e stack).1 = w_jobs w ∧ w_streams (wrap_err w e stack).1 = w_streams w.
  Proof. by destruct e. Qed.
  Lemma err_open ev e inst stack : job_event_err_kv w j ev e inst stack = Ok (err_result w st jb inst ev e stack).
  Proof.
    unfold job_event_err_kv, err_result. destruct (wrap_same e stack) as [H1 H2].
    destruct (wrap_err w e stack) as [w0 e'] eqn:E0. cbn in H1, H2.
    rewrite (with_job_kvs_ok _ _ _ _ jb st) by (rewrite ?H1, ?H2; done).
    rewrite (for_sinks_plain (λ w, PEventErr ev e' (emitted w e'))) by (intros; by rewrite emitted_set_log).
    destruct (merged_key_values w0 st jb inst) as [w1 all] eqn:E1. cbn.
    replace (emitted w1 e') with (emitted w0 e'); [done|].
    destruct (merged_same _ _ _ _ _ _ E1) as [He _]. unfold emitted. by rewrite He.
  Qed.
End open.

Lemma kv_forms w j :
  (∀ ev, job_event w j ev = job_event_kv w j ev None) ∧
  (∀ ev e s, job_event_err w j ev e s = job_event_err_kv w j ev e None s) ∧
  (∀ ev n, job_timing w j ev n = job_timing_kv w j ev n None) ∧
  (∀ ev v, job_gauge w j ev v = job_gauge_kv w j ev v None) ∧
  (∀ s, job_complete w j s = job_complete_kv w j s None).
Proof. done. Qed.

(** without a job, or with a job without a stream, an emission panics *)
Lemma with_job_kvs_inv {A} w j inst (k : world → stream → job → option nat → A) r :
  with_job_kvs w j inst k = Ok r →
  ∃ jb st, w_jobs w !! j = Some jb ∧ w_streams w !! jb_stream jb = Some st.
Proof.
  unfold with_job_kvs. intros H. destruct (w_jobs w !! j) as [jb|] eqn:Ej; [|done].
  destruct (w_streams w !! jb_stream jb) as [st|] eqn:Es; [|done]. eauto.
Qed.

(** ** The effect of a call on the rest of the world *)

(** nothing but the log, the clock and fresh addresses *)
Record quiet (w w' : world) : Prop := {
  q_next : (w_next w ≤ w_next w')%nat;
  q_maps : ∀ l, (l < w_next w)%nat → w_maps w' !! l = w_maps w !! l;
  q_streams : w_streams w' = w_streams w;
  q_jobs : w_jobs w' = w_jobs w;
  q_mine : w_mine w' = w_mine w;
  q_clock : w_clock w' = w_clock w }.

Lemma quiet_trans w1 w2 w3 : quiet w1 w2 → quiet w2 w3 → quiet w1 w3.
Proof.
  intros [] []; split; try congruence; [lia|]. intros l Hl.
  rewrite q_maps1 by lia. by apply q_maps0.
Qed.

Lemma merged_quiet w st jb inst : quiet w (merged_key_values w st jb inst).1.
Proof.
  destruct (merged_key_values w st jb inst) as [w' all] eqn:E.
  destruct (merged_same _ _ _ _ _ _ E) as (?&?&?&?&?&?&?), (merged_maps _ _ _ _ _ _ E) as [??]. by split.
Qed.
Lemma wrap_quiet w e s : quiet w (wrap_err w e s).1.
Proof. destruct e; split; cbn; try done; lia. Qed.
Lemma mark_quiet w e : quiet w (mark_emitted w e).
Proof.
  unfold mark_emitted. destruct e; try (split; cbn; done).
  destruct (w_errs w !! l) as [[]|]; split; cbn; done.
Qed.

Lemma simple_quiet w st jb inst p : quiet w (simple_result w st jb inst p).
Proof.
  unfold simple_result. pose proof (merged_quiet w st jb inst) as H.
  destruct (merged_key_values w st jb inst). by destruct H.
Qed.
Lemma complete_quiet w st jb inst s : quiet w (complete_result w st jb inst s).
Proof.
  unfold complete_result. pose proof (merged_quiet w st jb inst) as H.
  destruct (merged_key_values w st jb inst). by destruct H.
Qed.
Lemma err_quiet w st jb inst ev e s : quiet w (err_result w st jb inst ev e s).1.
Proof.
  unfold err_result. pose proof (wrap_quiet w e s) as H0.
  destruct (wrap_err w e s) as [w0 e']. pose proof (merged_quiet w0 st jb inst) as H.
  destruct (merged_key_values w0 st jb inst) as [w1 all]. cbn in *.
  eapply quiet_trans; [exact H0|]. eapply quiet_trans; [exact H|].
  eapply quiet_trans; [|apply mark_quiet]. by split.
Qed.

(** ** An emitting call is one of the five *)
Definition result_of (w : world) (a : api) (st : stream) (jb : job) : world :=
  match a with
  | ApiEvent _ ev => simple_result w st jb None (PEvent ev)
  | ApiEventKv _ ev i => simple_result w st jb i (PEvent ev)
  | ApiEventErr _ ev e s => (err_result w st jb None ev e s).1
  | ApiEventErrKv _ ev e i s => (err_result w st jb i ev e s).1
  | ApiTiming _ ev n => simple_result w st jb None (PTiming ev n)
  | ApiTimingKv _ ev n i => simple_result w st jb i (PTiming ev n)
  | ApiGauge _ ev v => simple_result w st jb None (PGauge ev v)
  | ApiGaugeKv _ ev v i => simple_result w st jb i (PGauge ev v)
  | ApiComplete _ s => complete_result w st jb None s
  | ApiCompleteKv _ s i => complete_result w st jb i s
  | _ => w
  end.

Lemma emission_open w a j inst jb st :
  emission a = Some (j, inst) → w_jobs w !! j = Some jb → w_streams w !! jb_stream jb = Some st →
  api_step w a = Ok (result_of w a st jb).
Proof.
  intros He Hj Hs. destruct a; cbn in He; try done; injection He as -> <-; cbn [api_step result_of].
  all: first [apply (event_open w j jb st Hj Hs)|apply (timing_open w j jb st Hj Hs)
             |apply (gauge_open w j jb st Hj Hs)|apply (complete_open w j jb st Hj Hs)|idtac].
  - destruct (kv_forms w j) as (_&->&_). by rewrite (err_open w j jb st Hj Hs).
  - by rewrite (err_open w j jb st Hj Hs).
Qed.

Lemma emission_inv w a j inst w' :
  emission a = Some (j, inst) → api_step w a = Ok w' →
  ∃ jb st, w_jobs w !! j = Some jb ∧ w_streams w !! jb_stream jb = Some st ∧ w' = result_of w a st jb.
Proof.
  intros He Hw.
  assert (∃ jb st, w_jobs w !! j = Some jb ∧ w_streams w !! jb_stream jb = Some st) as (jb&st&Hj&Hs).
  { destruct a; cbn in He; try done; injection He as -> <-; cbn [api_step] in Hw;
      try (by eapply with_job_kvs_inv; exact Hw).
    all: unfold job_event_err, job_event_err_kv in Hw;
      destruct (wrap_same w e stack) as [H1 H2]; destruct (wrap_err w e stack) as [w0 e'];
      cbn in H1, H2; rewrite <-H1, <-H2;
      match type of Hw with context [with_job_kvs ?a ?b ?c ?d] => destruct (with_job_kvs a b c d) eqn:Ex; [|done] end;
      eapply with_job_kvs_inv; exact Ex. }
  exists jb, st. split; [done|]. split; [done|].
  rewrite (emission_open _ _ _ _ jb st He Hj Hs) in Hw. by injection Hw.
Qed.

Lemma emission_quiet w a st jb : quiet w (result_of w a st jb).
Proof.
  destruct a; cbn; try apply simple_quiet; try apply complete_quiet; try apply err_quiet; split; done.
Qed.
